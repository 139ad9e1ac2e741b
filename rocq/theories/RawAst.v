(** The documents of raw sources: what is not settled is all that keeps them from being tame. *)
From Verif Require Import Base Lexer LexSpec LexProofs LexFacts Ops Parser FParser Refine Refine2 Refine3 Wf TokFacts StreamSpec StreamProofs Lines
  StreamProofs2 StreamProofs3 Ast ToYamd Api Strict TreeAst AstSpec AstProofs Tame Settled Mild RawLex RawTree RawLinks.

(** ** Texts of tokens *)

Definition part (ts b : list token) : Prop := exists a c, ts = a ++ b ++ c.
Lemma part_refl : forall ts, part ts ts. Proof. intros ts. exists [], []. rewrite app_nil_r. reflexivity. Qed.
Lemma part_trans : forall x y z, part x y -> part y z -> part x z.
Proof. intros x y z (a & b & ->) (c & d & ->). exists (a ++ c), (d ++ b). rewrite <- !app_assoc. reflexivity. Qed.
Lemma part_kid : forall k t, In t k -> part (yields k) (yield t).
Proof. intros k t H. apply in_split in H. destruct H as (a & b & ->). exists (yields a), (yields b). rewrite yields_app. reflexivity. Qed.
Lemma part_node : forall n o k c, part (yield (Node n o k c)) (yields k).
Proof. intros n o k c. exists o, c. reflexivity. Qed.
Lemma part_rlinked : forall s x y, part x y -> rlinked s x -> rlinked s y.
Proof. intros s x y (a & b & ->) L. eapply rlinked_mid; exact L. Qed.
Lemma part_quiet : forall st x y, part x y -> quiet st x -> quiet st y.
Proof. intros st x y (a & b & ->) L. eapply quiet_mid; exact L. Qed.

Lemma raw_chars : forall s ts c, rlinked s ts -> In c (ttexts s ts) -> c <> c_cr /\ c <> c_bslash.
Proof.
  intros s ts c L H. apply in_flat_map in H. destruct H as (t & Ht & H). destruct (rlinked_tok s ts t L Ht) as [_ (_ & R1 & R2 & _)].
  split; intros ->; [apply R1|apply R2]; exact H.
Qed.
Lemma no_cr : forall s ts, rlinked s ts -> ~ In c_cr (ttexts s ts).
Proof. intros s ts L H. apply (proj1 (raw_chars s ts _ L H)). reflexivity. Qed.
Lemma no_nl : forall s ts, rlinked s ts -> free is_eol_or_terminator ts -> ~ In c_nl (ttexts s ts).
Proof.
  intros s ts L F H. apply in_flat_map in H. destruct H as (t & Ht & H). destruct (rlinked_tok s ts t L Ht) as [O R].
  unfold free in F. rewrite Forall_forall in F. specialize (F t Ht). unfold is_eol_or_terminator in F.
  destruct (nl_kind s t O R H) as [K|K]; rewrite K in F; discriminate.
Qed.

Lemma quiet_term : forall st ts, In StopTerminator st -> quiet st ts -> Forall (fun t => kind t <> Terminator) ts.
Proof.
  intros st ts HS Q. apply Forall_forall. intros t Ht K. apply in_split in Ht. destruct Ht as (a & b & ->). specialize (Q a (t :: b) _ eq_refl HS).
  cbn in Q. unfold is_terminator in Q. rewrite K in Q. discriminate.
Qed.
Lemma quiet_coll : forall s st ts, In StopCollapsibleEnd st -> rlinked s ts -> quiet st ts -> ~ has [c_nl; c_percent; c_rcurly] (ttexts s ts).
Proof.
  intros s st ts HS L Q (a & b & E). destruct (coll_pattern s ts a b L E) as (x & u & y & -> & U). specialize (Q x (u :: y) _ eq_refl HS).
  cbn in Q. rewrite U in Q. discriminate.
Qed.
(** Raw texts have no blank lines. *)
Definition lines (cs : bool) (x : str) : Prop := ~ In c_cr x /\ ~ has [c_nl; c_nl] x /\ (cs = true -> ~ has [c_nl; c_percent; c_rcurly] x).
Lemma lines_inner : forall cs x, lines cs x -> Tame.inner_text cs x.
Proof.
  intros cs x (H1 & H2 & H3). split; [exact H1|]. split; [|exact H3]. intros a b -> _. destruct b as [|c b]; [right; exists 0; reflexivity|]. cbn [leading]. destruct (char_eqb c c_nl) eqn:E; [|right; exists 0; reflexivity].
  left. destruct b as [|d b]; [reflexivity|]. cbn [leading]. destruct (char_eqb d c_nl) eqn:F; [|reflexivity]. exfalso. apply H2. apply N.eqb_eq in E, F. subst c d. exists a, b. reflexivity.
Qed.
Lemma quiet_lines : forall s cs ts, rlinked s ts -> quiet (StopTerminator :: stops cs) ts -> lines cs (ttexts s ts).
Proof.
  intros s cs ts L Q. split; [apply no_cr; exact L|]. split.
  - intros (a & b & E). apply (no_two_nl s ts a b L); [|exact E]. eapply quiet_term; [|exact Q]. left. reflexivity.
  - intros ->. eapply quiet_coll; [|exact L|exact Q]. right. left. reflexivity.
Qed.
Lemma quiet_inner : forall s cs ts, rlinked s ts -> quiet (StopTerminator :: stops cs) ts -> Tame.inner_text cs (ttexts s ts).
Proof. intros s cs ts L Q. apply lines_inner, quiet_lines; assumption. Qed.

Lemma prefix_lines : forall cs x y, lines cs (x ++ y) -> lines cs x.
Proof.
  intros cs x y (H1 & H2 & H3). split; [|split].
  - intros H. apply H1. apply in_or_app. left. exact H.
  - intros (a & b & ->). apply H2. exists a, (b ++ y). rewrite <- !app_assoc. reflexivity.
  - intros C (a & b & ->). apply (H3 C). exists a, (b ++ y). rewrite <- !app_assoc. reflexivity.
Qed.
Lemma trim_end_prefix : forall c x, exists j, x = trim_end c x ++ repeat c j.
Proof.
  intros c x. unfold trim_end. assert (H : exists j, rev x = repeat c j ++ trim_start c (rev x)).
  { generalize (rev x). intros y. induction y as [|d y (j & IH)]; [exists 0; reflexivity|]. cbn [trim_start]. destruct (char_eqb c d) eqn:E.
    - apply N.eqb_eq in E. subst d. exists (S j). cbn. f_equal. exact IH.
    - exists 0. reflexivity. }
  destruct H as (j & H). exists j. rewrite <- (rev_involutive x), H at 1. rewrite rev_app_distr. f_equal. clear. induction j as [|j IH]; [reflexivity|].
  cbn. rewrite IH. clear. induction j as [|j IH]; [reflexivity|]. cbn. f_equal. exact IH.
Qed.
Lemma trim_start_suffix : forall c x, exists j, x = repeat c j ++ trim_start c x.
Proof.
  intros c y. induction y as [|d y (j & IH)]; [exists 0; reflexivity|]. cbn [trim_start]. destruct (char_eqb c d) eqn:E.
  - apply N.eqb_eq in E. subst d. exists (S j). cbn. f_equal. exact IH.
  - exists 0. reflexivity.
Qed.

(** ** Strings of inline nodes *)

Lemma inner_leaf : forall s b, inner s [Leaf b] = ttexts s b.
Proof. intros s b. cbn. apply app_nil_r. Qed.

Lemma link_parts : forall s n o k c, wf (Node n o k c) -> n = NAnchor \/ n = NImage ->
  exists b1 b2, part (yields k) b1 /\ part (yields k) b2 /\ link_text s k = ttexts s b1 /\ link_dest s k = ttexts s b2.
Proof.
  intros s n o k c W N. inversion W as [| |? ? ? ? Wk Sh]; subst.
  assert (H : exists t d, k = [t; d] /\ root NTitle t /\ root NDestination d) by (destruct N as [->| ->]; apply Sh).
  destruct H as (t & d & -> & (o1 & k1 & c1 & ->) & (o2 & k2 & c2 & ->)).
  inversion Wk as [|? ? W1 Wk']; subst. inversion Wk' as [|? ? W2 _]; subst.
  inversion W1 as [| |? ? ? ? _ S1]; subst. inversion W2 as [| |? ? ? ? _ S2]; subst.
  destruct S1 as (_ & (b1 & ->) & _). destruct S2 as (_ & (b2 & ->) & _). exists b1, b2. split; [|split].
  - eapply part_trans; [apply part_kid; left; reflexivity|]. cbn. rewrite app_nil_r. exists o1, c1. reflexivity.
  - eapply part_trans; [apply part_kid; right; left; reflexivity|]. cbn. rewrite app_nil_r. exists o2, c2. reflexivity.
  - unfold link_text, link_dest. rewrite child_text_hd, child_text_tl, child_text_hd by discriminate. cbn [text_or_empty]. rewrite !inner_leaf. auto.
Qed.

Lemma node_part : forall n o k c b, wf (Node n o k c) -> one_leaf k -> k = [Leaf b] -> part (yield (Node n o k c)) b.
Proof. intros n o k c b _ _ ->. exists o, c. cbn. rewrite app_nil_r. reflexivity. Qed.

Lemma strings_part : forall s k p x, Forall wf k -> items inline k -> In p (pars_of s k) -> In x (strings p) ->
  exists b, part (yields k) b /\ x = ttexts s b.
Proof.
  intros s k p x W It Hp Hx. apply in_flat_map in Hp. destruct Hp as (t & Ht & Hp). rewrite Forall_forall in W. specialize (W t Ht).
  assert (G : exists b, part (yield t) b /\ x = ttexts s b).
  { destruct t as [ts|ts|n o kk c]; [|contradiction|].
    - cbn in Hp. destruct Hp as [<-|[]]. destruct Hx as [<-|[]]. exists ts. split; [apply part_refl|reflexivity].
    - inversion W as [| |? ? ? ? Wk Sh]; subst.
      assert (ONE : one_leaf kk -> x = inner s kk -> exists b, part (yield (Node n o kk c)) b /\ x = ttexts s b).
      { intros (b & ->) E. exists b. split; [eapply node_part; eauto; exists b; reflexivity|]. rewrite E. apply inner_leaf. }
      destruct n; try contradiction; cbn in Hp; destruct Hp as [<-|[]]; cbn in Hx;
        try (destruct Hx as [Hx|[]]; apply ONE; [apply Sh|symmetry; exact Hx]).
      + destruct (link_parts s _ o kk c W (or_introl eq_refl)) as (b1 & b2 & P1 & P2 & E1 & E2). rewrite E1, E2 in Hx.
        destruct Hx as [<-|[<-|[]]]; [exists b1|exists b2]; (split; [|reflexivity]); (eapply part_trans; [apply part_node|assumption]).
      + apply in_map_iff in Hx. destruct Hx as (q & <- & Hq). apply in_flat_map in Hq. destruct Hq as (u & Hu & Hq). rewrite Forall_forall in Wk.
        specialize (Wk u Hu). assert (PU : part (yield (Node NBold o kk c)) (yield u)) by (eapply part_trans; [apply part_node|apply part_kid; exact Hu]).
        destruct u as [us|us|m o' k' c']; [|contradiction|].
        * cbn in Hq. destruct Hq as [<-|[]]. exists us. split; [exact PU|reflexivity].
        * inversion Wk as [| |? ? ? ? _ S']; subst. destruct m; try contradiction; cbn in Hq; destruct Hq as [<-|[]]; cbn;
            destruct S' as (_ & (b & ->) & _); exists b; (split; [|apply inner_leaf]);
            (eapply part_trans; [exact PU|]); exists o', c'; cbn; rewrite app_nil_r; reflexivity. }
  destruct G as (b & P & E). exists b. split; [|exact E]. eapply part_trans; [apply part_kid; exact Ht|exact P].
Qed.

Lemma tame_of_normal : forall cs p, par_normal p -> (forall x, In x (strings p) -> Tame.inner_text cs x) -> tame_inline cs p.
Proof.
  intros cs p N H. destruct p as [t u|l|x|x|x|x|x]; cbn in *; try (split; [exact N|]); try (apply (H x); left; reflexivity).
  - split; apply H; auto.
  - destruct N as (NE & F & N1 & N2). split; [exact NE|]. split; [|split; assumption]. rewrite Forall_forall in *. intros q Hq.
    assert (HI : Tame.inner_text cs (bold_string q)) by (apply H; apply in_map; exact Hq). specialize (F q Hq). destruct F as [F1 F2].
    destruct q as [y|y|y]; cbn in *; auto; (split; [|exact HI]); intros ->; congruence.
Qed.

Lemma all_tame : forall cs b, Forall par_normal b /\ no_neighbours (both is_ptext) b /\ no_neighbours fuse b ->
  (forall p x, In p b -> In x (strings p) -> Tame.inner_text cs x) -> tame_inlines cs b.
Proof.
  intros cs b (N & N1 & N2) H. split; [|split; assumption]. rewrite Forall_forall in *. intros p Hp. apply tame_of_normal; [apply N; exact Hp|].
  intros x Hx. eapply H; eauto.
Qed.
Lemma trim_strings : forall b p x, In p (trim_trailing_newline_from_text b) -> In x (strings p) ->
  exists p' j, In p' b /\ In (x ++ repeat c_nl j) (strings p').
Proof.
  intros b p x Hp Hx. destruct (trim_cases b) as (b1 & [[E _]|(y & -> & [[_ E]|[_ E]])]); rewrite E in Hp.
  - exists p, 0. rewrite app_nil_r. auto.
  - exists p, 0. rewrite app_nil_r. split; [apply in_or_app; auto|exact Hx].
  - apply in_app_or in Hp. destruct Hp as [Hp|[<-|[]]].
    + exists p, 0. rewrite app_nil_r. split; [apply in_or_app; auto|exact Hx].
    + destruct Hx as [<-|[]]. destruct (trim_end_prefix c_nl y) as (j & Ey). exists (PText y), j. split; [apply in_or_app; right; left; reflexivity|].
      left. exact Ey.
Qed.
Lemma trim_first : forall b, exists j, first_text b = first_text (trim_trailing_newline_from_text b) ++ repeat c_nl j.
Proof.
  intros b. destruct (trim_cases b) as (b1 & [[E _]|(y & -> & [[Y E]|[_ E]])]); rewrite E.
  - exists 0. rewrite app_nil_r. reflexivity.
  - destruct b1 as [|p b1]; [|exists 0; rewrite app_nil_r; reflexivity]. destruct (trim_end_prefix c_nl y) as (j & Ey). exists j. rewrite Y in Ey. exact Ey.
  - destruct b1 as [|p b1]; [|exists 0; rewrite app_nil_r; reflexivity]. destruct (trim_end_prefix c_nl y) as (j & Ey). exists j. exact Ey.
Qed.
Lemma trim_last_text : forall b, no_neighbours (both is_ptext) b -> ~ ends_with_nl (last_text (trim_trailing_newline_from_text b)).
Proof.
  intros b N. unfold last_text. destruct (rev (trim_trailing_newline_from_text b)) as [|p r] eqn:E; [intros (y & H); destruct y; discriminate|].
  apply (f_equal (@rev _)) in E. rewrite rev_involutive in E. cbn in E. destruct p; try (intros (y & H); destruct y; discriminate). eapply trim_last; eauto.
Qed.

Lemma strings_lines : forall s cs k p x, Forall wf k -> items inline k -> rlinked s (yields k) -> quiet (StopTerminator :: stops cs) (yields k) ->
  In p (pars_of s k) -> In x (strings p) -> lines cs x.
Proof.
  intros s cs k p x W It L Q Hp Hx. destruct (strings_part s k p x W It Hp Hx) as (b & P & ->).
  apply quiet_lines; [eapply part_rlinked; eauto|eapply part_quiet; eauto].
Qed.
Lemma pars_tame : forall s cs k, Forall wf k -> items inline k -> rlinked s (yields k) -> quiet (StopTerminator :: stops cs) (yields k) ->
  tame_inlines cs (pars_of s k).
Proof.
  intros s cs k W It L Q. apply all_tame; [apply par_items; auto; apply L|]. intros p x Hp Hx. apply lines_inner. eapply strings_lines; eauto.
Qed.
Lemma trimmed_tame : forall s cs k, Forall wf k -> items inline k -> rlinked s (yields k) -> quiet (StopTerminator :: stops cs) (yields k) ->
  let b := trim_trailing_newline_from_text (pars_of s k) in tame_inlines cs b /\ ~ ends_with_nl (last_text b).
Proof.
  intros s cs k W It L Q. pose proof (par_items s k W (proj1 L) It) as N. cbv zeta. split.
  - apply all_tame; [apply trim_normal; exact N|]. intros p x Hp Hx. destruct (trim_strings _ _ _ Hp Hx) as (p' & j & Hp' & Hx').
    apply lines_inner. eapply prefix_lines. eapply strings_lines; eauto.
  - apply trim_last_text. apply N.
Qed.
Lemma first_text_string : forall b, first_text b = [] \/ exists p, In p b /\ In (first_text b) (strings p).
Proof. intros [|p b]; [left; reflexivity|]. destruct p; try (left; reflexivity). right. cbn [first_text]. eexists. split; [left; reflexivity|left; reflexivity]. Qed.
Lemma no_blank : forall x, ~ has [c_nl; c_nl] x -> leading c_nl x <= 1.
Proof.
  intros x H. destruct x as [|c [|d x]]; cbn [leading]; [lia|destruct (char_eqb c c_nl); lia|]. destruct (char_eqb c c_nl) eqn:C; [|lia]. destruct (char_eqb d c_nl) eqn:D; [|lia].
  exfalso. apply N.eqb_eq in C, D. subst c d. apply H. exists [], x. reflexivity.
Qed.
Lemma trimmed_lines : forall s cs k, Forall wf k -> items inline k -> rlinked s (yields k) -> quiet (StopTerminator :: stops cs) (yields k) ->
  leading c_nl (first_text (trim_trailing_newline_from_text (pars_of s k))) <= 1.
Proof.
  intros s cs k W It L Q. destruct (first_text_string (trim_trailing_newline_from_text (pars_of s k))) as [->|(p & Hp & Hx)]; [cbn; lia|]. destruct (trim_strings _ _ _ Hp Hx) as (p' & j & Hp' & Hx').
  apply no_blank. assert (X : lines cs (first_text (trim_trailing_newline_from_text (pars_of s k)))) by (eapply prefix_lines; eapply strings_lines; eauto). apply X.
Qed.

Lemma first_text_part : forall s k, items inline k -> exists b c, yields k = b ++ c /\ first_text (pars_of s k) = ttexts s b.
Proof.
  intros s k It. destruct k as [|t k]; [exists [], []; auto|]. destruct t as [ts|ts|n o kk c].
  - exists ts, (yields k). auto.
  - apply items_cons_inv in It. destruct It as [[] _].
  - exists [], (yields (Node n o kk c :: k)). split; [reflexivity|]. apply items_cons_inv in It. destruct It as [It _]. destruct n; try discriminate; reflexivity.
Qed.
Lemma pars_nonempty : forall s k, items inline k -> k <> [] -> pars_of s k <> [].
Proof.
  intros s k It NE E. destruct k as [|t k]; [congruence|]. apply items_cons_inv in It. destruct It as [It _].
  destruct (par_of_one s t) as (p & Ep); [destruct t; auto|]. cbn in E. unfold pars_of in E. cbn [flat_map] in E. rewrite Ep in E. discriminate.
Qed.

Lemma space_begins : forall s u ts b c, rlinked s (u :: ts) -> kind u = Space -> ts = b ++ c -> ~ begins [c_space] (ttexts s b).
Proof.
  intros s u ts b c L K -> (x & E). change (u :: b ++ c) with ((u :: b) ++ c) in L. apply rlinked_app in L. destruct L as [L _].
  eapply (after_space s u b); eauto.
Qed.

(** ** Headings *)

Lemma heads_tame : forall s cs k, Forall wf k -> items in_heading k -> rlinked s (yields k) -> quiet (StopTerminator :: stops cs) (yields k) ->
  Forall (tame_head cs) (flat_map (head_of s) k).
Proof.
  intros s cs k W It L Q. pose proof (head_items s k W (proj1 L) It) as [N _]. rewrite Forall_forall in *. intros h Hh.
  specialize (N h Hh). pose proof Hh as Hh'. apply in_flat_map in Hh. destruct Hh as (t & Ht & Hh).
  assert (P : part (yields k) (yield t)) by (apply part_kid; exact Ht).
  destruct t as [ts|ts|n o kk c]; [|contradiction|].
  - destruct Hh as [<-|[]]. cbn. split; [intros E; rewrite E in N; congruence|].
    apply quiet_inner; [eapply part_rlinked; eauto|eapply part_quiet; eauto].
  - destruct n; try contradiction. destruct Hh as [<-|[]].
    destruct (link_parts s _ o kk c (W _ Ht) (or_introl eq_refl)) as (b1 & b2 & P1 & P2 & E1 & E2). cbn. rewrite E1, E2.
    assert (PK : part (yields k) (yields kk)) by (eapply part_trans; [exact P|apply part_node]).
    split; (apply quiet_inner; [eapply part_rlinked; [eapply part_trans; [exact PK|]|exact L]; assumption|eapply part_quiet; [eapply part_trans; [exact PK|]|exact Q]; assumption]).
Qed.

(** ** Images *)

Lemma image_tame : forall s cs t rest, wf t -> root NImage t -> rlinked s (yield t) -> calm cs t rest -> Forall (tame_image cs) (image_of s t).
Proof.
  intros s cs t rest W (o & k & c & ->) L C. apply calm_eq in C. destruct C as [Q _]. cbn [calm_node] in Q.
  destruct (link_parts s _ o k c W (or_intror eq_refl)) as (b1 & b2 & P1 & P2 & E1 & E2). cbn. constructor; [|constructor]. split; cbn; rewrite ?E1, ?E2;
  (apply quiet_inner; [eapply part_rlinked; [eapply part_trans; [apply part_node|]|exact L]; eassumption|eapply part_quiet; [|exact Q]; assumption]).
Qed.

(** ** Lists *)

Ltac flat := cbn [app]; repeat (rewrite <- app_assoc; cbn [app]).

Definition ltype (lk : list_kind) : list_type := match lk with Unordered => LUnordered | Ordered => LOrdered end.
Lemma marker_inj : forall l k l' k' o, marker l k o -> marker l' k' o -> l = l' /\ k = k'.
Proof.
  intros l k l' k' o (_ & m & u & M & _ & H) (_ & m' & u' & M' & _ & H'). destruct l as [|l], l' as [|l'].
  - subst o. injection H' as -> ->. split; congruence.
  - destruct H' as (i & H' & _). subst o. discriminate.
  - destruct H as (i & H & _). subst o. discriminate.
  - destruct H as (i & -> & I), H' as (i' & E & I'). injection E as <- <- <-. split; [|congruence]. unfold is_indent in *.
    apply andb_true_iff in I, I'. destruct I as [_ I], I' as [_ I']. apply Nat.eqb_eq in I, I'. congruence.
Qed.
Lemma marker_space : forall l k o, marker l k o -> exists a u, o = a ++ [u] /\ kind u = Space.
Proof.
  intros l k o (_ & m & u & _ & U & H). assert (K : kind u = Space) by (unfold is_space_1 in U; apply andb_true_iff in U; apply kind_eqb_eq; apply U).
  destruct l; [exists [m], u; auto|]. destruct H as (i & -> & _). exists [i; m], u. auto.
Qed.

Lemma has_prefix : forall p x y, has p x -> has p (x ++ y).
Proof. intros p x y (a & b & ->). exists a, (b ++ y). rewrite <- !app_assoc. reflexivity. Qed.

Lemma item_text_tame : forall s cs lvl outer lk o k, Forall wf k -> items inline k -> rlinked s (o ++ yields k) -> quiet (StopTerminator :: stops cs) (yields k) ->
  marker lvl lk o -> quiet [StopListBoundary lvl lk] (yields k) ->
  let b := trim_trailing_newline_from_text (pars_of s k) in tame_item_text cs lvl outer (ltype lk) b.
Proof.
  intros s cs lvl outer lk o k W It L0 Q M B b. pose proof (rlinked_app _ _ _ L0) as [_ L].
  destruct (trimmed_tame s cs k W It L Q) as [T1 T2]. fold b in T1, T2. split; [exact T1|]. split; [|split; [exact T2|]].
  - intros (x & E). destruct (trim_first (pars_of s k)) as (j & F). fold b in F. destruct (first_text_part s k It) as (b1 & b2 & E1 & E2).
    destruct (marker_space _ _ _ M) as (a & u & -> & U). rewrite <- app_assoc in L0. apply rlinked_app in L0. destruct L0 as [_ L0].
    apply (space_begins s u (yields k) b1 b2 L0 U E1). exists (x ++ repeat c_nl j). rewrite <- E2, F, E, <- app_assoc. reflexivity.
  - intros p x j c Hp Hx Hj Hc Hl _ (u & v & E & V0 & _).
    assert (V : forall z, v <> c_space :: z) by (intros z ->; apply V0; exists z; reflexivity).
    destruct (trim_strings _ _ _ Hp Hx) as (p' & i & Hp' & Hx'). destruct (strings_part s k p' _ W It Hp' Hx') as (d & P & Ed).
    assert (MK : exists lk', marker_of c = Some lk' /\ (j = lvl -> lk' = lk)).
    { destruct Hc as [->| ->]; [exists Unordered|exists Ordered]; (split; [reflexivity|]); intros X; specialize (Hl X); destruct lk; try reflexivity; discriminate. }
    destruct MK as (lk' & MK & MJ).
    destruct (item_pattern s d u (v ++ repeat c_nl i) j c lk' (part_rlinked _ _ _ P L) MK) as (e & f & -> & NE & C0 & B1 & B2).
    + rewrite <- Ed, E. flat. reflexivity.
    + intros z. destruct v as [|w v]; [destruct i; discriminate|]. cbn. intros X. injection X as -> _. eapply V; reflexivity.
    + pose proof (part_quiet _ _ _ P B e f _ eq_refl (or_introl eq_refl)) as X. cbn [fmatches] in X. rewrite C0 in X. cbn [andb] in X.
      assert (Y : existsb (fun level => boundary_at level (if level =? lvl then Some lk else None) f) (seq 0 (S (lvl + 1))) = true).
      { apply existsb_exists. exists j. split; [apply in_seq; lia|]. destruct (Nat.eqb_spec j lvl); [rewrite <- MJ by assumption; exact B2|exact B1]. }
      congruence.
Qed.

Lemma calms_kid : forall cs k rest t, calms cs k rest -> In t k -> exists rest', calm cs t rest'.
Proof.
  intros cs k. induction k as [|u k IH]; intros rest t C H; [contradiction|]. destruct C as [C1 C2]. destruct H as [<-|H]; eauto.
Qed.

Lemma list_tame : forall s cs t lvl outer rest, wf t -> rlinked s (yield t) -> calm cs t rest ->
  match t with
  | Node NListItem o _ _ => forall lk, marker lvl lk o ->
      Forall (tame_item cs lvl outer (ltype lk)) (item_of s lvl t)
  | Node (NUnorderedList | NOrderedList) _ _ _ => list_at lvl t ->
      tame_list cs lvl outer (list_of s lvl t)
  | _ => True
  end.
Proof.
  intros s cs. induction t as [ts|ts|n o k c IH] using tree_ind'; intros lvl outer rest W L C; try exact I.
  inversion W as [| |? ? ? ? Wk Sh]; subst. apply calm_eq in C. destruct C as [Cn Ck].
  rewrite Forall_forall in IH, Wk.
  assert (PK : forall t, In t k -> rlinked s (yield t)).
  { intros t Ht. eapply part_rlinked; [|exact L]. eapply part_trans; [apply part_node|apply part_kid; exact Ht]. }
  assert (G : forall lk ty, ty = ltype lk -> k <> [] -> Forall (item_at lvl lk) k -> is_coll n = false ->
     tame_list cs lvl outer (YList ty lvl (flat_map (item_of s lvl) k))).
  { intros lk ty -> NE F IC. rewrite IC, orb_false_r in Ck. rewrite Forall_forall in F. constructor.
    - destruct k as [|t k]; [congruence|]. assert (Ht : In t (t :: k)) by (left; reflexivity). pose proof (Wk t Ht) as Wt.
      destruct (F t Ht) as (o' & k' & -> & _). inversion Wt as [| |? ? ? ? _ Si]; subst. destruct Si as (_ & l & lk' & p & _ & _ & H).
      destruct H as [->|(x & -> & _)]; discriminate.
    - apply Forall_flat_map. apply Forall_forall. intros t Ht. destruct (calms_kid _ _ _ _ Ck Ht) as (rest' & Ct).
      pose proof (IH t Ht lvl outer rest' (Wk t Ht) (PK t Ht) Ct) as X. destruct (F t Ht) as (o' & k' & -> & M). apply X. exact M. }
  destruct n; try exact I.
  - intros lk M. destruct Cn as (l' & lk' & M' & Q). destruct (marker_inj _ _ _ _ _ M M') as [<- <-].
    destruct Sh as (-> & l0 & lk0 & p & M0 & R & H). destruct (marker_inj _ _ _ _ _ M M0) as [<- <-].
    assert (Hk : exists r, k = p :: r) by (destruct H as [->|(x & -> & _)]; eauto). destruct Hk as (r & Hk). subst k.
    assert (Hp : In p (p :: r)) by (left; reflexivity). pose proof (Wk p Hp) as Wp. destruct R as (op & kp & cp & ->).
    inversion Wp as [| |? ? ? ? Wkp Shp]; subst. destruct Shp as (-> & -> & It & _). cbn [yield app] in Q. fold (yields kp) in Q. rewrite app_nil_r in Q.
    cbn [calms] in Ck. destruct Ck as [Cp Cr]. apply calm_eq in Cp. destruct Cp as [Cp _]. cbn [calm_node is_coll] in Cp. rewrite orb_false_r in *.
    cbn [item_of trimmed paragraph_of map concat]. rewrite app_nil_r. constructor; [|constructor]. constructor.
    + eapply item_text_tame; [exact Wkp|exact It| |exact Cp|exact M|exact Q].
      cbn in L. fold (yields r) in L. fold (yields kp) in L. rewrite !app_nil_r, app_assoc in L. apply rlinked_app in L. apply L.
    + intros l El. destruct H as [H|(x & H & Lx)]; injection H as ->; [discriminate|]. injection El as <-.
      assert (Hx : In x [Node NParagraph [] kp []; x]) by (right; left; reflexivity).
      cbn [calms] in Cr. destruct Cr as [Cx _].
      pose proof (IH x Hx (S lvl) (mchar (ltype lk) :: outer) _ (Wk x Hx) (PK x Hx) Cx) as X.
      pose proof (list_kind_root _ _ Lx) as (ty & kx & ->). destruct ty; exact (X Lx).
  - intros (lk & k' & E & NE & F). assert (k' = k) by congruence. subst k'. rewrite list_of_eq in *.
    assert (lk = Ordered) by (destruct lk; [discriminate|reflexivity]). subst lk. eapply G; eauto; reflexivity.
  - intros (lk & k' & E & NE & F). assert (k' = k) by congruence. subst k'. rewrite list_of_eq in *.
    assert (lk = Unordered) by (destruct lk; [reflexivity|discriminate]). subst lk. eapply G; eauto; reflexivity.
Qed.

(** ** Ends of blocks *)

Lemma ended_no_nl : forall s st a rest x b, rlinked s (a ++ rest) -> quiet st a -> In StopTerminator st -> ended a rest -> rest <> [] -> a = x ++ b ->
  ~ ends_with_nl (ttexts s b).
Proof.
  intros s st a rest x b L Q T E NE -> (y & H). pose proof (rlinked_app _ _ _ L) as [La _]. pose proof (rlinked_app _ _ _ La) as [_ Lb].
  pose proof (quiet_term _ _ T Q) as NT. destruct (nl_split s b y [] Lb H) as (a' & t & b' & -> & K).
  rewrite Forall_forall in NT. assert (NTt : kind t <> Terminator) by (apply NT; apply in_or_app; right; apply in_or_app; right; left; reflexivity).
  destruct K as [(K & _ & K2)|(K & _)]; [|congruence]. assert (b' = []).
  { destruct b' as [|u b']; [reflexivity|]. exfalso. apply (leaf_nonempty s (u :: b')); [|discriminate|symmetry; exact K2].
    apply rlinked_app in Lb. destruct Lb as [_ Lb]. apply (rlinked_app s [t] (u :: b')) in Lb. apply Lb. }
  subst b'. destruct rest as [|r rs]; [congruence|].
  assert (L' : rlinked s ((x ++ a') ++ t :: r :: rs)) by (replace ((x ++ a') ++ t :: r :: rs) with ((x ++ a' ++ [t]) ++ r :: rs) by (flat; reflexivity); exact L).
  destruct (rlinked_pair _ _ _ _ _ L') as [(_ & J & _) (R & _)]. specialize (J K). specialize (R K).
  destruct E as [E|[E|(E & A)]]; [discriminate| |].
  - cbn in E. unfold is_terminator in E. apply kind_eqb_eq in E. congruence.
  - cbn in E. apply orb_true_iff in E. destruct E as [E|E].
    + rewrite app_assoc in A. apply awake_app in A. destruct A as [_ [A _]]. cbn in A. rewrite E in A.
      assert (X : is_eol t = true) by (unfold is_eol; rewrite K; reflexivity). rewrite X in A. rewrite orb_true_r in A. discriminate.
    + apply andb_true_iff in E. destruct E as [E _]. unfold is_eol in E. apply kind_eqb_eq in E. congruence.
Qed.

Lemma last_text_part : forall s k, items inline k -> exists a b, yields k = a ++ b /\ last_text (pars_of s k) = ttexts s b.
Proof.
  intros s k It. destruct (rev k) as [|t r] eqn:E.
  - apply (f_equal (@rev _)) in E. rewrite rev_involutive in E. subst k. exists [], []. auto.
  - apply (f_equal (@rev _)) in E. rewrite rev_involutive in E. cbn in E. subst k.
    assert (P : match t with Skip _ => False | Node n _ _ _ => inline n = true | _ => True end).
    { clear - It. generalize (rev r) It. intros l. clear It. induction l as [|u l IH]; intros It; apply items_cons_inv in It; [|apply IH; apply It].
      destruct It as [It _]. destruct t; auto. }
    unfold last_text, pars_of. rewrite flat_map_app, yields_app, rev_app_distr. cbn [flat_map]. rewrite app_nil_r.
    destruct t as [ts|ts|n o kk c]; [|contradiction|].
    + exists (yields (rev r)), ts. cbn. rewrite app_nil_r. auto.
    + exists (yields (rev r) ++ yields [Node n o kk c]), []. split; [rewrite app_nil_r; reflexivity|]. destruct n; try discriminate; reflexivity.
Qed.
Lemma last_head_part : forall s k, items in_heading k -> exists a b, yields k = a ++ b /\ last_head (flat_map (head_of s) k) = ttexts s b.
Proof.
  intros s k It. destruct (rev k) as [|t r] eqn:E.
  - apply (f_equal (@rev _)) in E. rewrite rev_involutive in E. subst k. exists [], []. auto.
  - apply (f_equal (@rev _)) in E. rewrite rev_involutive in E. cbn in E. subst k.
    assert (P : match t with Skip _ => False | Node n _ _ _ => in_heading n = true | _ => True end).
    { clear - It. generalize (rev r) It. intros l. clear It. induction l as [|u l IH]; intros It; apply items_cons_inv in It; [|apply IH; apply It].
      destruct It as [It _]. destruct t; auto. }
    unfold last_head. rewrite flat_map_app, yields_app, rev_app_distr. cbn [flat_map]. rewrite app_nil_r.
    destruct t as [ts|ts|n o kk c]; [|contradiction|].
    + exists (yields (rev r)), ts. cbn. rewrite app_nil_r. auto.
    + exists (yields (rev r) ++ yields [Node n o kk c]), []. split; [rewrite app_nil_r; reflexivity|]. destruct n; try discriminate; reflexivity.
Qed.

(** ** Titles and icons *)

Lemma line_tame : forall s u b c, rlinked s (u :: b ++ c) -> kind u = Space -> free is_eol_or_terminator b -> tame_line (ttexts s b).
Proof.
  intros s u b c L K F. pose proof L as L1. change (u :: b ++ c) with ([u] ++ b ++ c) in L1. apply rlinked_mid in L1. split; [apply no_nl; assumption|].
  split; [apply no_cr; assumption|]. eapply space_begins; eauto.
Qed.

(** ** Metadata *)

Lemma leading_split : forall c x, exists y, x = repeat c (leading c x) ++ y /\ forall z, y <> c :: z.
Proof.
  intros c x. induction x as [|d x (y & E & N)]; [exists []; split; [reflexivity|discriminate]|]. cbn. destruct (char_eqb d c) eqn:D.
  - apply N.eqb_eq in D. subst d. exists y. split; [cbn; f_equal; exact E|exact N].
  - exists (d :: x). split; [reflexivity|]. intros z X. injection X as -> _. unfold char_eqb in D. rewrite N.eqb_refl in D. discriminate.
Qed.

Lemma meta_tame : forall s o b c, rlinked s (o :: b ++ c) -> is_three_dashes o = true -> free is_three_dashes b ->
  ~ starts_with_nl (trim_both c_nl (ttexts s b)) -> ~ ends_with_nl (trim_both c_nl (ttexts s b)) -> tame_meta (trim_both c_nl (ttexts s b)).
Proof.
  intros s o b c L O F N1 N2. pose proof L as Lb. change (o :: b ++ c) with ([o] ++ b ++ c) in Lb. apply rlinked_mid in Lb.
  set (x := ttexts s b) in *. assert (D : exists i j, x = repeat c_nl i ++ trim_both c_nl x ++ repeat c_nl j).
  { destruct (trim_start_suffix c_nl x) as (i & E). destruct (trim_end_prefix c_nl (trim_start c_nl x)) as (j & E'). exists i, j.
    unfold trim_both. rewrite <- E'. exact E. }
  destruct D as (i & j & D). set (m := trim_both c_nl x) in *.
  assert (Sub : forall d, In d m -> In d x) by (intros d Hd; rewrite D; apply in_or_app; right; apply in_or_app; left; exact Hd).
  split; [intros H; apply Sub in H; apply (proj2 (raw_chars s b _ Lb H)); reflexivity|].
  split; [intros H; apply Sub in H; apply (proj1 (raw_chars s b _ Lb H)); reflexivity|]. split; [exact N1|]. split; [exact N2|].
  intros a r E H3. destruct (leading_split c_minus r) as (y & Er & Ny). rewrite H3 in Er.
  assert (NO : existsb is_three_dashes b = false).
  { apply not_true_is_false. intros X. apply existsb_exists in X. destruct X as (t & Ht & X). unfold free in F. rewrite Forall_forall in F. rewrite (F t Ht) in X. discriminate. }
  assert (NY : match y ++ repeat c_nl j with d :: _ => d <> c_minus | [] => True end).
  { destruct y as [|w y]; [destruct j; cbn; [exact I|discriminate]|]. cbn. intros ->. eapply Ny; reflexivity. }
  destruct a as [|d a].
  - injection E as E. destruct i as [|i].
    + (* directly after the opening dashes *) cbn in D. assert (TX : ttexts s b = c_minus :: c_minus :: c_minus :: y ++ repeat c_nl j) by (fold x; rewrite D, E, Er; reflexivity).
      unfold is_three_dashes in O. rewrite !andb_true_iff in O. assert (KO : kind o = Minus) by (apply kind_eqb_eq; apply O).
      assert (L1 : rlinked s ([] ++ o :: b)) by (change (o :: b ++ c) with ((o :: b) ++ c) in L; apply rlinked_app in L; apply L).
      destruct (rlinked_tok s _ o L (or_introl eq_refl)) as [TO _]. destruct TO as (z & Sl & NZ & KT & _).
      assert (exists z', ttext s o = c_minus :: z') as (z' & Z).
      { unfold ttext. rewrite Sl. assert (KL : kind o <> Literal) by congruence. specialize (KT KL). rewrite KO in KT. destruct KT as (n & ->). exists (repeat c_minus n). reflexivity. }
      exact (run_end s [] o b c_minus Minus _ _ _ ltac:(unfold run_char; auto) L1 KO TX Z eq_refl).
    + apply not_true_iff_false in NO. apply NO. apply (dashes_pattern s b (repeat c_nl i) (y ++ repeat c_nl j) Lb); [|exact NY].
      fold x. rewrite D, E, Er. change (repeat c_nl (S i)) with (c_nl :: repeat c_nl i). rewrite repeat_cons. flat. reflexivity.
  - injection E as Ed E. subst d. apply not_true_iff_false in NO. apply NO. apply (dashes_pattern s b (repeat c_nl i ++ a) (y ++ repeat c_nl j) Lb); [|exact NY].
    fold x. rewrite D, E, Er. flat. reflexivity.
Qed.

(** ** Blocks *)

Definition opening_space (o : list token) : Prop := exists a u, o = a ++ [u] /\ kind u = Space.
Lemma space_1_kind : forall u, is_space_1 u = true -> kind u = Space.
Proof. intros u U. unfold is_space_1 in U. apply andb_true_iff in U. apply kind_eqb_eq. apply U. Qed.

(** The title directly after the opening tokens. *)
Lemma modifier_tame : forall s o t r c rest, rlinked s (o ++ yields (t :: r) ++ c) -> wf t -> root NModifier t -> every tight t rest ->
  (exists a u, o = a ++ [u] /\ is_space_or_eol u = true) -> tame_line_opt (child_text s NModifier (t :: r)).
Proof.
  intros s o t r c rest L W (o' & k' & c' & ->) T (a & u & -> & U). rewrite child_text_hd. cbn.
  inversion W as [| |? ? ? ? _ Sh]; subst. destruct Sh as (-> & (b & ->) & Oc). apply every_node in T. destruct T as [[T1 T2] _].
  rewrite inner_leaf. destruct T1 as (b0 & E & F). injection E as <-. cbn in T2. rewrite app_nil_r in T2.
  cbn in L. rewrite app_nil_r in L. fold (yields r) in L. rewrite <- !app_assoc in L. apply rlinked_app in L. destruct L as [_ L]. cbn in L.
  eapply line_tame; [exact L| |exact F]. unfold is_space_or_eol in U. apply orb_true_iff in U. destruct U as [U|U]; [apply kind_eqb_eq; exact U|].
  exfalso. apply kind_eqb_eq in U. destruct Oc as (v & -> & _). destruct b as [|w b]; cbn in T2, L.
  - destruct (rlinked_pair s [] _ _ _ L) as [(_ & _ & _ & J) _]. assert (X : col0 v = true) by (apply J; auto). cbn in T2. congruence.
  - destruct (rlinked_pair s [] _ _ _ L) as [(_ & _ & _ & J) _]. assert (X : col0 w = true) by (apply J; auto). cbn in T2. congruence.
Qed.
Lemma icon_tame : forall s t r rest, rlinked s (yield t) -> wf t -> root NIcon t -> every tight t rest -> tame_line_opt (child_text s NIcon (t :: r)).
Proof.
  intros s t r rest L W (o' & k' & c' & ->) T. rewrite child_text_hd. cbn.
  inversion W as [| |? ? ? ? _ Sh]; subst. destruct Sh as ((u & v & -> & _ & V) & (b & ->) & Oc). apply every_node in T. destruct T as [T1 _].
  rewrite inner_leaf. destruct T1 as (b0 & E & F). injection E as <-. cbn in L. rewrite app_nil_r in L.
  apply (rlinked_app s [u] (v :: b ++ c')) in L. destruct L as [_ L]. eapply line_tame; [exact L| |exact F]. apply space_1_kind. exact V.
Qed.

Lemma hl_pars : forall s k p, hl_body k -> In p (flat_map (trimmed s) k) -> exists kp o c, In (Node NParagraph o kp c) k /\ p = trim_trailing_newline_from_text (pars_of s kp).
Proof.
  intros s k p _ H. apply in_flat_map in H. destruct H as (t & Ht & H). destruct t as [|?|n o kp c]; try contradiction. destruct n; try contradiction.
  destruct H as [<-|[]]. eauto.
Qed.

Lemma highlight_mild : forall s cs o k c rest, wf (Node NHighlight o k c) -> rlinked s (o ++ yields k ++ c) -> everys tight k (c ++ rest) -> calms cs k (c ++ rest) ->
  mild_highlight cs (child_text s NModifier k) (child_text s NIcon k) (flat_map (trimmed s) k) /\ Forall (fun q => leading c_nl (first_text q) <= 1) (flat_map (trimmed s) k).
Proof.
  intros s cs o k c rest W L T C. inversion W as [| |? ? ? ? Wk Sh]; subst. destruct Sh as (_ & k1 & k2 & k3 & -> & O2 & H3 & O).
  apply Forall_app in Wk. destruct Wk as [W1 Wk]. apply Forall_app in Wk. destruct Wk as [W2 W3].
  apply everys_app in T. destruct T as [T1 T]. apply everys_app in T. destruct T as [T2 T3].
  assert (Mod : k1 = [] \/ exists t, k1 = [t] /\ root NModifier t) by (destruct O as [[_ O]|[_ ->]]; [exact O|left; reflexivity]).
  assert (L2 : rlinked s (yields k2)) by (rewrite !yields_app in L; flat; eapply part_rlinked; [|exact L]; exists (o ++ yields k1), (yields k3 ++ c); flat; reflexivity).
  enough (X : tame_line_opt (child_text s NModifier (k1 ++ k2 ++ k3)) /\ tame_line_opt (child_text s NIcon (k1 ++ k2 ++ k3)) /\ Forall (fun q => q = [] \/ tame_hpar cs q) (flat_map (trimmed s) (k1 ++ k2 ++ k3)) /\ Forall (fun q => leading c_nl (first_text q) <= 1) (flat_map (trimmed s) (k1 ++ k2 ++ k3))) by (unfold mild_highlight; tauto).
  split; [|split; [|]].
  - destruct O as [[Ot O]|[_ ->]]; [destruct O as [->|(t & -> & R)]|]; cbn [app].
    1,3: destruct O2 as [->|(m & -> & (o' & k' & c' & ->))]; cbn [app]; rewrite ?child_text_tl by discriminate; rewrite hl_body_none by (assumption || discriminate); exact I.
    inversion W1; subst. cbn in T1. eapply modifier_tame; [exact L|assumption|exact R|apply T1|]. destruct Ot as (u & v & -> & _ & V).
    exists [u], v. split; [reflexivity|]. unfold is_space_or_eol. rewrite (space_1_kind _ V). reflexivity.
  - assert (E : child_text s NIcon (k1 ++ k2 ++ k3) = child_text s NIcon (k2 ++ k3)).
    { destruct Mod as [->|(t & -> & (o' & k' & c' & ->))]; [reflexivity|]. cbn [app]. rewrite child_text_tl by discriminate. reflexivity. }
    rewrite E. destruct O2 as [->|(t & -> & R)]; cbn [app]; [rewrite hl_body_none by (assumption || discriminate); exact I|].
    inversion W2; subst. cbn in T2, L2. rewrite app_nil_r in L2. eapply icon_tame; [exact L2|assumption|exact R|apply T2].
  - assert (A : forall p, In p (flat_map (trimmed s) (k1 ++ k2 ++ k3)) -> (tame_inlines cs p /\ ~ ends_with_nl (last_text p)) /\ leading c_nl (first_text p) <= 1).
    2:{ split; apply Forall_forall; intros q Hq; [|apply A; exact Hq]. destruct q as [|x q]; [left; reflexivity|right]. split; [discriminate|]. apply A. exact Hq. }
    intros p Hp. apply in_flat_map in Hp. destruct Hp as (t & Ht & Hp). destruct t as [|?|n o' kp c']; try contradiction. destruct n; try contradiction. destruct Hp as [<-|[]].
    assert (Wt : wf (Node NParagraph o' kp c')).
    { assert (A : Forall wf (k1 ++ k2 ++ k3)) by (repeat (apply Forall_app; split); assumption). rewrite Forall_forall in A. apply A. exact Ht. }
    inversion Wt as [| |? ? ? ? Wp Sp]; subst. destruct Sp as (-> & -> & It & _). destruct (calms_kid _ _ _ _ C Ht) as (rest' & Ct).
    apply calm_eq in Ct. destruct Ct as [Q _]. cbn [calm_node] in Q. assert (Lp : rlinked s (yields kp)); [|split; [apply trimmed_tame; auto|eapply trimmed_lines; eauto]].
    eapply part_rlinked; [|exact L]. eapply part_trans; [exists o, c; reflexivity|]. eapply part_trans; [apply part_kid; exact Ht|apply part_node].
Qed.

Lemma odd_end : forall x, Nat.Odd (leading c_nl (rev x)) -> ends_with_nl x.
Proof.
  intros x [m E]. destruct (rev x) as [|d r] eqn:R; [cbn in E; lia|]. cbn [leading] in E. destruct (char_eqb d c_nl) eqn:D; [|lia]. apply N.eqb_eq in D. subst d.
  exists (rev r). rewrite <- (rev_involutive x), R. reflexivity.
Qed.

(** A block that is not at the end does not end with a line feed. *)
Lemma block_end : forall s cs t rest, wf t -> rlinked s (yield t ++ rest) -> calm cs t rest -> over t rest -> rest <> [] -> Forall (fun y => ~ block_ends_nl y) (blocks s t).
Proof.
  intros s cs t rest W L C [_ Ov] NE. destruct t as [ts|ts|n o k c]; try constructor. inversion W as [| |? ? ? ? Wk Sh]; subst.
  apply calm_eq in C. destruct C as [Q _].
  destruct n; cbn [blocks]; try apply Forall_nil; try (cbn [image_of map]; constructor; [exact (fun H => H)|constructor]); (constructor; [|constructor]).
  - destruct Sh as (_ & -> & It & _). cbn in Ov, L. fold (yields k) in L. rewrite app_nil_r, <- app_assoc in L. apply rlinked_app in L. destruct L as [_ L].
    destruct (last_head_part s k It) as (a & b & E1 & E2). cbn [block_ends_nl]. rewrite E2. eapply ended_no_nl; [exact L|exact Q|left; reflexivity|exact Ov|exact NE|exact E1].
  - destruct Sh as (-> & -> & It & _). cbn in Ov, L. fold (yields k) in L. rewrite app_nil_r in L.
    destruct (last_text_part s k It) as (a & b & E1 & E2). cbn [block_ends_nl]. rewrite E2. intros Od.
    assert (N : ~ ends_with_nl (ttexts s b)) by (eapply ended_no_nl; [exact L|exact Q|left; reflexivity|exact Ov|exact NE|exact E1]).
    apply N. apply odd_end. exact Od.
Qed.

Definition mild (cs : bool) (y : ynode) : Prop := mild_block cs y /\ single_block y.
Definition milds (s : str) (t : tree) : Prop := forall cs rest, wf t -> rlinked s (yield t ++ rest) -> every tight t rest -> calm cs t rest ->
  (over t rest -> block t -> Forall (mild cs) (blocks s t))
  /\ match t with
     | Node NDocument _ k _ => Forall (mild cs) (flat_map (blocks s) k)
     | _ => True
     end.

Lemma blocks_mild : forall s k cs rest, Forall (milds s) k -> Forall wf k -> Forall block k -> rlinked s (yields k ++ rest) -> everys tight k rest -> calms cs k rest ->
  overs k rest -> Forall (mild cs) (flat_map (blocks s) k).
Proof.
  intros s k cs rest P. induction P as [|t k Pt P IH]; intros W B L T C O; [constructor|]. cbn [flat_map] in *. inversion W; subst. inversion B; subst.
  destruct T as [T1 T2], C as [C1 C2], O as [O1 O2]. cbn in L. fold (yields k) in L. rewrite <- app_assoc in L.
  apply Forall_app. split.
  - apply (Pt cs (yields k ++ rest)); assumption.
  - apply rlinked_app in L. destruct L as [_ L]. apply IH; assumption.
Qed.
Lemma blocks_ends : forall s k cs rest, Forall wf k -> rlinked s (yields k ++ rest) -> calms cs k rest -> overs k rest -> rest <> [] ->
  Forall (fun y => ~ block_ends_nl y) (flat_map (blocks s) k).
Proof.
  intros s k cs rest W. induction W as [|t k W1 W IH]; intros L C O NE; [constructor|]. cbn [flat_map]. destruct C as [C1 C2], O as [O1 O2].
  cbn in L. fold (yields k) in L. rewrite <- app_assoc in L. apply Forall_app. split.
  - eapply block_end; eauto. intros E. apply app_eq_nil in E. apply NE. apply E.
  - apply rlinked_app in L. destruct L as [_ L]. apply IH; assumption.
Qed.
Lemma fold_and : forall A (P : A -> Prop) l, fold_right and True (map P l) <-> Forall P l.
Proof. intros A P l. induction l as [|x l IH]; cbn; [split; auto|]. rewrite IH. split; [intros [H1 H2]; auto|intros H; inversion H; auto]. Qed.

Lemma tame_line_nil : tame_line [].
Proof. split; [intros []|]. split; [intros []|]. intros (y & E). discriminate. Qed.
Lemma two_last : forall f g o, two f g o -> exists a u, o = a ++ [u] /\ g u = true.
Proof. intros f g o (t & u & -> & _ & U). exists [t], u. auto. Qed.

Lemma block_mild : forall s t, milds s t.
Proof.
  intros s. induction t as [ts|ts|n o k c IH] using tree_ind'; intros cs rest W L T C; try (split; [intros; constructor|exact I]).
  inversion W as [| |? ? ? ? Wk Sh]; subst. pose proof C as C0. apply calm_eq in C. destruct C as [Cn Ck]. apply every_node in T. destruct T as [Tn Tk].
  assert (Ly : rlinked s (yield (Node n o k c))) by (apply rlinked_app in L; apply L).
  assert (Lk : rlinked s (yields k)) by (eapply part_rlinked; [apply part_node|exact Ly]).
  assert (LT : forall ty, is_coll n = false -> list_at 0 (Node n o k c) -> ty = list_of s 0 (Node n o k c) ->
      match n with NUnorderedList | NOrderedList => True | _ => False end -> tame_list cs 0 [] ty).
  { intros ty IC LA -> D. pose proof (list_tame s cs _ 0 [] rest W Ly C0) as X. destruct n; try contradiction; apply X; assumption. }
  split.
  - intros [Oy Ov] B. destruct n; try (cbn [blocks]; constructor; fail).
    + (* code *) cbn [blocks]. constructor; [|constructor]. split; [|exact I]. cbn.
      destruct Sh as (_ & k1 & b & -> & O). assert (Eb : inner s (k1 ++ [Leaf b]) = ttexts s b).
      { unfold inner. rewrite flat_map_app. cbn. rewrite app_nil_r. destruct O as [[_ [->|(t & -> & (o' & k' & c' & ->))]]|[_ ->]]; reflexivity. }
      assert (Pb : part (yields (k1 ++ [Leaf b])) b) by (exists (yields k1), []; rewrite yields_app; cbn; rewrite !app_nil_r; reflexivity).
      split; [|split; [|intros (y & E); eapply trim_end_no_nl; exact E]].
      * destruct O as [[_ [->|(t & -> & (o' & k' & c' & ->))]]|[_ ->]]; try (intros []). apply Forall_app in Wk. destruct Wk as [W1 _].
        inversion W1 as [|? ? Wm _]; subst. inversion Wm as [| |? ? ? ? _ Sm]; subst. destruct Sm as (-> & (d & ->) & _). cbn [app]. rewrite child_text_hd.
        cbn [text_or_empty]. rewrite inner_leaf. apply no_cr. eapply part_rlinked; [|exact Lk].
        eapply part_trans; [apply part_kid; left; reflexivity|]. exists [], c'. cbn. rewrite app_nil_r. reflexivity.
      * rewrite Eb. intros H. destruct (trim_end_prefix c_nl (ttexts s b)) as (j & E). apply (no_cr s b); [eapply part_rlinked; [exact Pb|exact Lk]|].
        rewrite E. apply in_or_app. left. exact H.
    + (* collapsible *) cbn [blocks] in *. constructor; [|constructor]. 
      destruct Sh as (So & Sc & k1 & k2 & k3 & -> & O1 & O3).
      assert (Eb : flat_map (fun d => match d with Node NDocument _ k2 _ => flat_map (blocks s) k2 | _ => [] end) (k1 ++ [Node NDocument [] k2 []] ++ k3) = flat_map (blocks s) k2).
      { rewrite !flat_map_app. destruct O1 as [->|(t & -> & (o' & k' & c' & ->))], O3 as [->|(e & -> & _)]; cbn; rewrite ?app_nil_r; reflexivity. }
      rewrite Eb in *. rewrite orb_true_r in Ck.
      apply calms_app in Ck. destruct Ck as [_ Ck]. cbn [app calms] in Ck. destruct Ck as [Cd _].
      apply everys_app in Tk. destruct Tk as [T1 Tk]. cbn [app everys] in Tk. destruct Tk as [Td _].
      apply Forall_app in Wk. destruct Wk as [W1 Wk]. inversion Wk as [|? ? Wd _]; subst.
      rewrite Forall_forall in IH. assert (Hd : In (Node NDocument [] k2 []) (k1 ++ [Node NDocument [] k2 []] ++ k3)) by (apply in_or_app; right; left; reflexivity).
      set (rest' := yields k3 ++ c ++ rest) in *.
      assert (Ld : rlinked s (yield (Node NDocument [] k2 []) ++ rest')).
      { eapply part_rlinked; [|exact L]. exists (o ++ yields k1), []. unfold rest'. cbn [yield]. fold (yields (k1 ++ [Node NDocument [] k2 []] ++ k3)).
        rewrite !yields_app. cbn. rewrite !app_nil_r. flat. reflexivity. }
      pose proof (proj2 (IH _ Hd true rest' Wd Ld Td Cd)) as M. cbn in M. split; [cbn [mild_block]; split; [|split]|].
      * destruct O1 as [->|(t & -> & R)].
        -- destruct O3 as [->|(e & -> & _)]; exact tame_line_nil.
        -- inversion W1; subst. cbn [app] in *. cbn in T1. pose proof (modifier_tame s o t (Node NDocument [] k2 [] :: k3) c _ Ly ltac:(assumption) R (proj1 T1) (two_last _ _ _ So)) as X.
           destruct (child_text s NModifier _); [exact X|exact tame_line_nil].
      * apply fold_and. eapply Forall_impl; [|exact M]. intros m Hm. apply Hm.
      * inversion Wd as [| |? ? ? ? Wk2 _]; subst. apply calm_eq in Cd. destruct Cd as [Cd1 Cd2]. cbn in Ld, Cd1, Cd2. fold (yields k2) in Ld. rewrite app_nil_r in Ld.
        eapply blocks_ends; [exact Wk2|exact Ld|exact Cd2|exact Cd1|]. unfold rest'. intros E. apply app_eq_nil in E. destruct E as [_ E]. apply app_eq_nil in E.
        destruct E as [E _]. destruct Sc as (e & _ & [->|(e' & -> & _)]); discriminate.
      * cbn [single_block]. apply fold_and. eapply Forall_impl; [|exact M]. intros m Hm. apply Hm.
    + (* embed *) cbn [blocks]. constructor; [|constructor]. split; [|exact I]. destruct Sh as (_ & _ & a & v & b & -> & V). cbn.
      assert (Pa : part (yields [Leaf a; Leaf [v]; Leaf b]) a) by (exists [], ([v] ++ b); cbn; rewrite app_nil_r; reflexivity).
      assert (Pb : part (yields [Leaf a; Leaf [v]; Leaf b]) b) by (exists (a ++ [v]), []; cbn; rewrite !app_nil_r; flat; reflexivity).
      split; [apply no_cr; eapply part_rlinked; eauto|]. split; [apply no_cr; eapply part_rlinked; eauto|].
      intros ->. apply (quiet_coll s [StopCollapsibleEnd] a); [left; reflexivity|eapply part_rlinked; eauto|eapply part_quiet; [exact Pa|exact Cn]].
    + (* heading *) cbn [blocks] in *. constructor; [|constructor]. split; [|exact I]. destruct Sh as (S1 & -> & It & _).
      cbn in Ly. fold (yields k) in Ly. rewrite app_nil_r in Ly. split; [apply heading_level; [apply rlinked_app in Ly; apply Ly|exact S1]|].
      split; [apply heads_tame; auto|]. split; [apply head_items; [exact Wk|apply Lk|exact It]|]. split; [exact (heads_linkless s k _ Wk It Lk Tk (proj2 Tn))|].
      destruct k as [|t k]; [exact I|]. pose proof (items_cons_inv _ _ _ It) as [It1 _]. destruct t as [ts|ts|m o' k' c']; [|contradiction|destruct m; try discriminate; exact I].
      cbn. destruct (two_last _ _ _ S1) as (a & u & -> & U). rewrite <- app_assoc in Ly. apply rlinked_app in Ly. destruct Ly as [_ Ly].
      eapply space_begins; [exact Ly|apply space_1_kind; exact U|reflexivity].
    + (* highlight *) cbn [blocks] in *. constructor; [|constructor]. cbn [is_coll] in Ck. rewrite orb_false_r in Ck.
      apply (highlight_mild s cs o k c rest W Ly Tk Ck).
    + (* image *) cbn [blocks]. apply Forall_map. cbn [is_coll] in *. apply (Forall_impl _ (fun i (Hi : tame_image cs i) => conj Hi I : mild cs (YImage i))). apply (image_tame s cs (Node NImage o k c) rest); auto. repeat eexists.
    + (* images *) cbn [blocks]. constructor; [|constructor]. split; [|exact I]. destruct Sh as (_ & _ & N & R). cbn. cbn [is_coll] in Ck. rewrite orb_false_r in Ck. split.
      * assert (E : length (flat_map (image_of s) k) = length k).
        { clear - R. induction R as [|t k (o & k' & c & ->) R IHR]; [reflexivity|]. cbn. rewrite IHR. reflexivity. }
        rewrite E. exact N.
      * apply Forall_flat_map. rewrite Forall_forall in *. intros t Ht. destruct (calms_kid _ _ _ _ Ck Ht) as (rest' & Ct).
        eapply image_tame; eauto. eapply part_rlinked; [apply part_kid; exact Ht|exact Lk].
    + (* ordered *) cbn [blocks] in *. constructor; [|constructor]. split; [|exact I]. cbn in B. destruct B as [B|B]; [discriminate|].
      apply LT; auto.
    + (* paragraph *) cbn [blocks] in *. constructor; [|constructor]. split; [|exact I]. destruct Sh as (-> & -> & It & _).
      split; [|apply pars_tame; auto]. apply pars_nonempty; [exact It|]. intros ->. apply Oy. reflexivity.
    + (* thematic break *) cbn [blocks]. constructor; [split; exact I|constructor].
    + (* unordered *) cbn [blocks] in *. constructor; [|constructor]. split; [|exact I]. cbn in B. destruct B as [B|B]; [discriminate|].
      apply LT; auto.
  - destruct n; try exact I. destruct Sh as (-> & -> & B). cbn [is_coll] in Ck. rewrite orb_false_r in Ck. cbn in Cn, Ck, Tk, L. fold (yields k) in L.
    rewrite app_nil_r in L. exact (blocks_mild s k cs rest IH Wk B L Tk Ck Cn).
Qed.

(** ** Documents *)

Lemma closed_app : forall a b, Forall (fun y => ~ block_ends_nl y) a -> closed_body b -> closed_body (a ++ b).
Proof.
  intros a b H Hb. induction H as [|y a Hy H IH]; [exact Hb|]. cbn. destruct (a ++ b); [exact I|]. split; assumption.
Qed.
Lemma blocks_closed : forall s k cs, Forall wf k -> rlinked s (yields k) -> calms cs k [] -> overs k [] -> closed_body (flat_map (blocks s) k).
Proof.
  intros s k cs W. induction W as [|t k W1 W IH]; intros L C O; [exact I|]. cbn [flat_map]. destruct C as [C1 C2], O as [O1 O2].
  cbn in L. fold (yields k) in L. rewrite app_nil_r in *. destruct (flat_map (blocks s) k) eqn:E.
  - rewrite app_nil_r. destruct t as [| |n o kk c]; try exact I. destruct n; exact I.
  - rewrite <- E. apply closed_app.
    + eapply block_end; eauto. destruct k as [|u k]; [discriminate|]. destruct O2 as [[NE _] _]. cbn. intros X. apply app_eq_nil in X. destruct X as [X _]. congruence.
    + rewrite E. apply IH; auto. apply rlinked_app in L. apply L.
Qed.

Definition mild_doc (y : yamd) : Prop :=
  match metadata y with Some m => tame_meta m | None => True end
  /\ Forall (mild false) (body y) /\ closed_body (body y).

Theorem raw_mild : forall s, raw s -> mild_doc (document_of s).
Proof.
  intros s R. pose proof (doc_metadata s) as DM. unfold document_of in *. destruct (fparse_wf (spec_tokens s)) as [W T].
  pose proof (fparse_rlinked s R) as L. pose proof (fparse_tight s) as Ti. pose proof (fparse_calm s) as C.
  destruct T as (k1 & d & Ek & (o & k & c & ->) & O). rewrite Ek in *. clear Ek.
  apply Forall_app in W. destruct W as [W1 W]. inversion W as [|? ? Wd _]; subst. inversion Wd as [| |? ? ? ? Wk Sh]; subst. destruct Sh as (-> & -> & B).
  apply everys_app in Ti. destruct Ti as [T1 [Td _]]. apply calms_app in C. destruct C as [_ [Cd _]].
  assert (Eb : body_of s (k1 ++ [Node NDocument [] k []]) = flat_map (blocks s) k).
  { unfold body_of. rewrite flat_map_app. cbn. rewrite app_nil_r. destruct O as [->|(m & -> & (o' & k' & c' & ->))]; reflexivity. }
  unfold mild_doc, doc_of in *. cbn [metadata body] in *. rewrite Eb.
  assert (Ld : rlinked s (yields k)).
  { eapply part_rlinked; [|exact L]. eapply part_trans; [apply part_kid; apply in_or_app; right; left; reflexivity|apply part_node]. }
  split; [|split].
  - destruct (child_text s NMetadata _) as [x|] eqn:Ex; [|exact I]. cbn [option_map] in *. destruct (DM _ eq_refl) as [D1 D2].
    destruct O as [->|(m & -> & (o' & k' & c' & ->))]; [discriminate|]. inversion W1 as [|? ? Wm _]; subst. inversion Wm as [| |? ? ? ? _ Sm]; subst.
    destruct Sm as ((t & -> & Ht) & (b & ->) & _). cbn [app] in Ex. rewrite child_text_hd in Ex. assert (x = ttexts s b) by (rewrite <- inner_leaf; congruence). subst x.
    destruct T1 as [T1 _]. apply every_node in T1. destruct T1 as [(b' & E & F) _]. injection E as <-.
    cbn in L. rewrite app_nil_r in L. eapply meta_tame; [|exact Ht|exact F|exact D1|exact D2]. rewrite !app_nil_r, <- app_assoc in L. exact L.
  - refine (proj2 (block_mild s (Node NDocument [] k []) false [] Wd _ Td Cd)). cbn. fold (yields k). rewrite !app_nil_r. exact Ld.
  - apply calm_eq in Cd. destruct Cd as [Cn Ck]. cbn in Cn, Ck. eapply blocks_closed; eauto.
Qed.
Theorem raw_tame : forall s, raw s -> settled (document_of s) -> tame_doc (document_of s).
Proof.
  intros s R St. destruct (raw_mild s R) as (M1 & M2 & M3). split; [exact M1|]. split; [|exact M3]. unfold settled in St. rewrite Forall_forall in *. intros y Hy. apply mild_settled; [apply M2|]; auto.
Qed.
