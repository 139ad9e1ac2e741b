(** No inline node is missed (continues Lines.v). *)
From Coq Require Import String.
From Verif Require Import Base Lexer LexSpec LexProofs LexFacts Ops Parser FParser Refine Refine2 Refine3
  Wf TokFacts StreamSpec StreamProofs StreamProofs2 Lines StreamProofs3 LineProofs MissSpec.
Open Scope list_scope.

(** A text among the children of a node. *)
Lemma leaf_in : forall s k m1 v m2, Forall not_skip k -> tevents_all s k = m1 ++ (Value, v) :: m2 -> balanced (map fst m1) ->
  exists k1 b k2, k = k1 ++ Leaf b :: k2 /\ m1 = tevents_all s k1 /\ v = ttexts s b /\ m2 = tevents_all s k2.
Proof.
  intros s. induction k as [|t k IH]; intros m1 v m2 NS E B; [destruct m1; discriminate|]. inversion NS as [|? ? N1 N2]; subst.
  change (tevents_all s (t :: k)) with (tevents s t ++ tevents_all s k) in E. destruct t as [b|b|n o k' c].
  - destruct m1 as [|e m1].
    + cbn [tevents app] in E. injection E as E1 E2. subst. exists [], b, k. auto.
    + cbn [tevents app] in E. injection E as E1 E2. subst e. cbn [map fst] in B. inversion B as [|l B' |]; subst.
      destruct (IH _ _ _ N2 E2 B') as (k1 & b' & k2 & -> & -> & -> & ->). exists (Leaf b :: k1), b', k2. auto.
  - destruct N1.
  - cbn [tevents] in E. fold (tevents_all s k') in E. destruct m1 as [|e m1]; [discriminate|]. cbn [app] in E. injection E as E1 E2. subst e.
    cbn [map fst] in B. inversion B as [| |n' mid rest Bm Br [E3 E4]]; subst.
    rewrite <- app_assoc in E2. cbn [app] in E2.
    assert (X : exists m3 y m4, m1 = m3 ++ (End n, y) :: m4 /\ map fst m3 = mid /\ map fst m4 = rest).
    { clear - E4. symmetry in E4. revert mid E4. induction m1 as [|[e w] m1 IH]; intros mid E4; [destruct mid; discriminate|]. destruct mid as [|f mid]; cbn in E4; injection E4 as -> E4.
      - exists [], w, m1. auto.
      - destruct (IH _ E4) as (m3 & y & m4 & -> & <- & <-). exists ((f, w) :: m3), y, m4. auto. }
    destruct X as (m3 & y & m4 & -> & <- & <-). rewrite <- app_assoc in E2. cbn [app] in E2.
    pose proof (f_equal (map fst) E2) as M. rewrite !map_app in M. cbn in M. apply balanced_unique in M; [|apply tevents_balanced|exact Bm].
    apply (f_equal (@List.length _)) in M. rewrite !map_length in M. assert (Q : tevents_all s k' = m3) by (eapply app_same_length; eauto).
    subst m3. apply app_inv_head in E2. injection E2 as <- E2. destruct (IH _ _ _ N2 E2 Br) as (k1 & b' & k2 & -> & -> & -> & ->).
    exists (Node n o k' c :: k1), b', k2. split; [reflexivity|]. split; [|auto]. cbn [tevents_all flat_map tevents]. fold (tevents_all s k'). cbn. rewrite <- app_assoc. reflexivity.
Qed.

Lemma none_missed_at : forall P k1 b k2, none_missed P (k1 ++ Leaf b :: k2) -> forall x y, b = x ++ y -> y <> [] -> ~ P (y ++ yields k2).
Proof. intros P k1. induction k1 as [|t k1 IH]; intros b k2 H; [apply H|]. destruct t; cbn in H; try (destruct H as [_ H]); exact (IH b k2 H). Qed.

(** Tokens of the source and tokens of the trees. *)
Lemma tok_flip : forall s k x t u, flip t u -> k <> CollapsibleStart -> is_tok s k x t -> u = t.
Proof.
  intros s k x t u [->|[C ->]] N [K _]; [reflexivity|]. unfold is_collapsible_start in C. apply andb_true_iff in C. destruct C as [C _]. apply kind_eqb_eq in C. congruence.
Qed.
Lemma tok_len_of : forall s k x t, tok_ok s t -> is_tok s k x t -> kind t = k /\ tlen t = byte_len x.
Proof. intros s k x t O [K X]. split; [exact K|exact (tlen_of s t x O X)]. Qed.
Lemma none_of_free : forall k f ts us, flips ts us -> k <> Literal -> (forall t, f t = true -> kind t = k) -> none_of k ts -> free f us.
Proof.
  intros k f ts us F N H. induction F as [|t u ts us Ft F IH]; intros X; [constructor|]. inversion X as [|? ? X1 X2]; subst. constructor; [|apply IH; exact X2].
  destruct (f u) eqn:E; [|reflexivity]. exfalso. apply H in E. destruct Ft as [->|[C ->]]; [congruence|]. cbn in E. congruence.
Qed.

Ltac unflip F T := let E := fresh in assert (E := fun N => tok_flip _ _ _ _ _ F N T); specialize (E ltac:(discriminate)); rewrite E in *; clear E.
Ltac of_tok := match goal with H : is_tok ?s _ _ ?t, O : tok_ok ?s ?t |- _ => apply (tok_len_of s _ _ t O) in H; destruct H end.
Ltac by_kind := let E := fresh in intros ? E; apply andb_true_iff in E; destruct E as [E _]; apply kind_eqb_eq in E; exact E.

Lemma pair_flips : forall s k x f ts us, k <> CollapsibleStart -> (forall t, kind t = k -> tlen t = byte_len x -> f t = true) ->
  flips ts us -> Forall (tok_ok s) ts -> pair_here s k x ts -> opens_delim f f us.
Proof.
  intros s k x f ts us N H F O (o & b & c & r & -> & To & Tc). inversion F as [|? o' ? us1 Fo F1]; subst. apply Forall2_app_inv_l in F1. destruct F1 as (b' & us2 & F1 & F2 & ->).
  inversion F2 as [|? c' ? r' Fc F3]; subst. inversion O as [|? ? O1 O2]; subst. apply Forall_app in O2. destruct O2 as [_ O2]. inversion O2 as [|? ? O3 _]; subst.
  rewrite (tok_flip _ _ _ _ _ Fo N To), (tok_flip _ _ _ _ _ Fc N Tc). repeat of_tok. exists o, b', c, r'. split; [reflexivity|]. split; apply H; assumption.
Qed.
Lemma link_flips : forall s ts us, flips ts us -> Forall (tok_ok s) ts -> link_here s ts -> opens_anchor us.
Proof.
  intros s ts us F O (o & b & c & p & d & q & r & -> & To & Nb & Tc & Tp & Tq).
  inversion F as [|? o' ? us1 Fo F1]; subst. apply Forall2_app_inv_l in F1. destruct F1 as (b' & us2 & F1 & F2 & ->).
  inversion F2 as [|? c' ? us3 Fc F3]; subst. inversion F3 as [|? p' ? us4 Fp F4]; subst. apply Forall2_app_inv_l in F4. destruct F4 as (d' & us5 & F4 & F5 & ->).
  inversion F5 as [|? q' ? r' Fq F6]; subst.
  inversion O as [|? ? O1 O2]; subst. apply Forall_app in O2. destruct O2 as [_ O2]. inversion O2 as [|? ? O3 O4]; subst. inversion O4 as [|? ? O5 O6]; subst.
  apply Forall_app in O6. destruct O6 as [_ O6]. inversion O6 as [|? ? O7 _]; subst.
  unflip Fo To. unflip Fc Tc. unflip Fp Tp. unflip Fq Tq.
  assert (Fb : free is_right_bracket b') by (eapply none_of_free; [exact F1| | |exact Nb]; [discriminate|by_kind]). repeat of_tok.
  exists o, b', c, p, d', q, r'. split; [reflexivity|]. unfold is_left_bracket, is_right_bracket, is_left_paren.
  repeat match goal with H : kind _ = _ |- _ => rewrite H end. repeat match goal with H : tlen _ = _ |- _ => rewrite H end. auto 8.
Qed.
Lemma bold_flips : forall s ts us, flips ts us -> Forall (tok_ok s) ts -> bold_here s ts -> opens_bold us.
Proof.
  intros s ts us F O (o & b & c & r & -> & To & N1 & N2 & Tc). inversion F as [|? o' ? us1 Fo F1]; subst. apply Forall2_app_inv_l in F1. destruct F1 as (b' & us2 & F1 & F2 & ->).
  inversion F2 as [|? c' ? r' Fc F3]; subst. inversion O as [|? ? O1 O2]; subst. apply Forall_app in O2. destruct O2 as [_ O2]. inversion O2 as [|? ? O3 _]; subst.
  unflip Fo To. unflip Fc Tc.
  assert (X1 : free is_tilde b') by (eapply none_of_free; [exact F1| | |exact N1]; [discriminate|by_kind]). assert (X2 : free is_underscore b') by (eapply none_of_free; [exact F1| | |exact N2]; [discriminate|by_kind]).
  repeat of_tok. exists o, b', c, r'. split; [reflexivity|]. unfold is_star2.
  repeat match goal with H : kind _ = _ |- _ => rewrite H end. repeat match goal with H : tlen _ = _ |- _ => rewrite H end. auto.
Qed.
Ltac by_len := intros t K L; cbn in L; unfold is_tilde, is_underscore, is_backtick, is_star; rewrite K, L; reflexivity.
Lemma node_flips : forall s p ts us, flips ts us -> Forall (tok_ok s) ts -> node_here s p ts ->
  match p with NHeading => opens_anchor us | NBold => opens_in_bold us | NParagraph => opens_inline us | _ => False end.
Proof.
  intros s p ts us F O H. destruct p; try exact H; cbn [node_here] in H.
  - destruct H as [H|H]; [left|right]; (eapply pair_flips; [| |exact F|exact O|exact H]; [discriminate|by_len]).
  - apply (link_flips s ts us F O H).
  - destruct H as [H|[H|H]]; [left; exact (link_flips s ts us F O H)|right; left; exact (bold_flips s ts us F O H)|right; right].
    destruct H as [H|[H|[H|H]]]; [left|right; left|right; right; left|right; right; right]; (eapply pair_flips; [| |exact F|exact O|exact H]; [discriminate|by_len]).
Qed.

Lemma none_missed_event : forall s ops es a p x m1 v m2 y b, parse s = Ok ops -> reads s ops es ->
  es = a ++ (Start p, x) :: (m1 ++ (Value, v) :: m2) ++ (End p, y) :: b -> balanced (map fst m1) -> balanced (map fst m2) ->
  p = NParagraph \/ p = NHeading \/ p = NBold ->
  exists ts1 ts2 ts3 ts4 x1 x3, lex s = Ok (ts1 ++ ts2 ++ ts3 ++ ts4)
    /\ concat_texts s ts1 = Ok x1 /\ covered (a ++ (Start p, x) :: m1) x1
    /\ concat_texts s ts2 = Ok v /\ concat_texts s ts3 = Ok x3 /\ covered m2 x3
    /\ forall us vs, ts2 = us ++ vs -> vs <> [] -> ~ node_here s p (vs ++ ts3).
Proof.
  intros s ops es a p x m1 v m2 y b H R E B1 B2 N.
  assert (B : balanced (map fst (m1 ++ (Value, v) :: m2))).
  { rewrite map_app. apply balanced_app; [exact B1|]. cbn. constructor. exact B2. }
  destruct (node_tight _ _ _ _ _ _ _ _ _ H R E B) as (o & k & c & ta & tb & W & Fl & -> & M & -> & Cv & T & _).
  inversion W as [| |? ? ? ? Wk Sh]; subst.
  assert (NS : Forall not_skip k).
  { eapply shape_not_skip; [exact Sh|]. intros ->. destruct N as [N|[N|N]]; discriminate. }
  symmetry in M. destruct (leaf_in s k m1 v m2 NS M B1) as (k1 & bb & k2 & -> & -> & -> & ->).
  apply Forall_app in NS. destruct NS as [NS1 NS2]. inversion NS2 as [|? ? _ NS3]; subst.
  apply Forall_app in Wk. destruct Wk as [Wk1 Wk2]. inversion Wk2 as [|? ? _ Wk3]; subst.
  pose proof (flips_linked s _ _ Fl (spec_linked s)) as L.
  rewrite yields_app in Fl, L. cbn [yields flat_map yield] in Fl, L. fold (yields k2) in Fl, L.
  match type of Fl with flips _ ?X =>
    replace X with ((ta ++ o ++ yields k1) ++ bb ++ yields k2 ++ (c ++ tb)) in Fl, L by (repeat (rewrite ?app_nil_r, <- ?app_assoc; cbn [app]); reflexivity) end.
  destruct (source_split _ _ _ Fl) as (ts1 & ts' & EL & F1 & F2 & C1 & _ & TO).
  apply flips_split in F2. destruct F2 as (ts2 & ts'' & -> & F2 & F3). apply flips_split in F3. destruct F3 as (ts3 & ts4 & -> & F3 & F4).
  apply Forall_app in TO. destruct TO as [_ TO]. apply Forall_app in TO. destruct TO as [TO2 TO]. apply Forall_app in TO. destruct TO as [TO3 _].
  assert (V : forall ts, Forall (tok_ok s) ts -> vtok s ts).
  { intros ts Ft. eapply Forall_impl; [|exact Ft]. intros z (w & Hw & _). exists w. exact Hw. }
  exists ts1, ts2, ts3, ts4, (ttexts s (ta ++ o ++ yields k1)), (ttexts s ts3). split; [exact EL|]. split; [exact C1|]. split.
  { rewrite !ttexts_app. apply covered_app; [exact Cv|]. constructor.
    apply linked_app in L. destruct L as [L _]. apply linked_app in L. destruct L as [_ L]. apply linked_app in L. destruct L as [_ L].
    apply trees_covered_of; [exact L| |exact NS1]. eapply Forall_impl; [|exact Wk1]. intros w Ww. apply tree_covered. exact Ww. }
  split; [rewrite (flips_ttexts s _ _ F2); apply concat_of_ttexts; apply V; exact TO2|].
  split; [apply concat_of_ttexts; apply V; exact TO3|]. split.
  { rewrite <- (flips_ttexts s _ _ F3). apply linked_app in L. destruct L as [_ L]. apply linked_app in L. destruct L as [_ L]. apply linked_app in L. destruct L as [L _].
    apply trees_covered_of; [exact L| |exact NS3]. eapply Forall_impl; [|exact Wk3]. intros w Ww. apply tree_covered. exact Ww. }
  intros us vs -> Nv Hh. apply Forall2_app_inv_l in F2. destruct F2 as (us' & vs' & F2a & F2b & ->).
  assert (Nv' : vs' <> []) by (intros ->; inversion F2b; congruence).
  apply Forall_app in TO2. destruct TO2 as [_ TO2].
  pose proof (node_flips s p (vs ++ ts3) (vs' ++ yields k2) (Forall2_app F2b F3) (proj2 (Forall_app _ _ _) (conj TO2 TO3)) Hh) as X.
  destruct N as [->|[->| ->]]; destruct T as [_ T]; exact (none_missed_at _ _ _ _ T us' vs' eq_refl Nv' X).
Qed.

(** ** Blocks *)

Ltac fsplit := repeat (match goal with
  | F : flips (_ :: _) _ |- _ => inversion F; subst; clear F
  | F : Forall2 flip (_ :: _) _ |- _ => inversion F; subst; clear F
  | F : flips [] _ |- _ => inversion F; subst; clear F
  | F : Forall2 flip [] _ |- _ => inversion F; subst; clear F
  | F : flips (_ ++ _) _ |- _ => apply Forall2_app_inv_l in F; let F2 := fresh "F" in destruct F as (? & ? & F & F2 & ->)
  | F : Forall2 flip (_ ++ _) _ |- _ => apply Forall2_app_inv_l in F; let F2 := fresh "F" in destruct F as (? & ? & F & F2 & ->)
  | F : Forall (tok_ok _) (_ :: _) |- _ => inversion F; subst; clear F
  | F : Forall (tok_ok _) (_ ++ _) |- _ => apply Forall_app in F; destruct F
  end).
Lemma eol_flip : forall t u, flip t u -> kind t = Eol -> u = t.
Proof. intros t u [->|[C ->]] K; [reflexivity|]. unfold is_collapsible_start in C. apply andb_true_iff in C. destruct C as [C _]. apply kind_eqb_eq in C. congruence. Qed.
Ltac unflips := repeat (match goal with
  | F : flip ?t ?u, T : is_tok _ _ _ ?t |- _ => is_var u; let E := fresh in assert (E := fun N => tok_flip _ _ _ _ _ F N T); specialize (E ltac:(discriminate)); subst u; clear F
  | F : flip ?t ?u, T : kind ?t = Eol |- _ => is_var u; pose proof (eol_flip _ _ F T); subst u; clear F
  end).
Ltac oftoks := repeat match goal with H : is_tok ?s _ _ ?t, O : tok_ok ?s ?t |- _ => apply (tok_len_of s _ _ t O) in H; destruct H end.
Lemma col0_of : forall t, first_on_line t -> col0 t = true.
Proof. intros t H. unfold col0. apply Nat.eqb_eq. exact H. Qed.
Ltac kinds := repeat match goal with H : kind _ = _ |- _ => rewrite H end; repeat match goal with H : tlen _ = _ |- _ => rewrite H end;
  repeat match goal with H : first_on_line _ |- _ => rewrite (col0_of _ H) end.

Lemma heading_flips : forall s ts us, flips ts us -> Forall (tok_ok s) ts -> heading_here s ts -> opens_heading us.
Proof.
  intros s ts us F O (n & t & u & r & -> & N & Tt & C & Tu). fsplit. unflips. oftoks. exists t, u, l'0. split; [reflexivity|]. unfold is_hash, is_space_1. kinds. cbn. split; [|reflexivity].
  apply Nat.leb_le. clear - N. assert (byte_len (repeat c_hash n) = n) as -> by (clear; induction n; cbn in *; lia). exact N.
Qed.
Lemma break_flips : forall s ts us, flips ts us -> Forall (tok_ok s) ts -> break_here s ts -> opens_break us.
Proof.
  intros s ts us F O (t & r & -> & Tt & C). fsplit. unflips. oftoks. exists t, l'. split; [reflexivity|]. unfold is_dash5. kinds. reflexivity.
Qed.
Lemma list_flips : forall s ts us, flips ts us -> Forall (tok_ok s) ts -> list_here s ts -> opens_list us.
Proof.
  intros s ts us F O (t & u & r & -> & [Tt|Tt] & C & Tu); fsplit; unflips; oftoks; exists t, u, l'0; (split; [reflexivity|]); (split; [apply col0_of; exact C|]); unfold list_kind_of, is_space_1; kinds; (split; [discriminate|reflexivity]).
Qed.
Lemma end_of : forall t, is_line_end t -> is_eol_or_terminator t = true.
Proof. intros t [K|K]; unfold is_eol_or_terminator; rewrite K; reflexivity. Qed.
Lemma end_flip : forall t u, flip t u -> is_line_end t -> is_eol_or_terminator u = true.
Proof. intros t u F H. rewrite (flip_eot _ _ F). apply end_of. exact H. Qed.
Lemma over_flips : forall r r', flips r r' -> line_over r -> ends_block r'.
Proof. intros r r' F H. destruct F as [|e e' r r' Fe F]; [exact I|]. cbn in H |- *. eapply end_flip; eauto. Qed.
Lemma flip_same : forall t u, flip t u -> kind u <> Literal -> u = t.
Proof. intros t u [->|[_ ->]] N; [reflexivity|]. exfalso. apply N. reflexivity. Qed.
Lemma run_of : forall s t k c n, tok_ok s t -> kind t = k -> tlen t = n -> utf8_len c = 1 -> k <> Literal -> (forall e x, kind_text k e x -> exists n, x = repeat c (S n)) ->
  is_tok s k (repeat c n) t.
Proof.
  intros s t k c n O K L U N H. split; [exact K|]. pose proof (token_text_of s t O) as X. pose proof (tlen_of s t _ O X) as Y. destruct O as (x & Hx & _ & T & _). unfold token_text. rewrite Hx. f_equal.
  rewrite K in T. apply T, H in N. destruct N as (m & ->). unfold token_text in X. rewrite Hx in X. injection X as X. rewrite <- X in Y.
  assert (B : forall m, byte_len (repeat c m) = m) by (clear - U; intros m; induction m; cbn; [reflexivity|rewrite U, IHm; reflexivity]).
  change (c :: repeat c m) with (repeat c (S m)) in Y. rewrite B in Y. congruence.
Qed.
Lemma flip_free : forall (P : token -> Prop) f ts us, flips ts us -> (forall t, f t = true -> kind t <> Literal) -> (forall t, In t ts -> f t = true -> P t) -> Forall (fun t => ~ P t) ts -> free f us.
Proof.
  intros P f ts us F N H. induction F as [|t u ts us Ft F IH]; intros X; [constructor|]. inversion X as [|? ? X1 X2]; subst. constructor.
  - destruct (f u) eqn:E; [|reflexivity]. exfalso. rewrite (flip_same _ _ Ft (N _ E)) in E. apply X1, H; [left; reflexivity|exact E].
  - apply IH; [|exact X2]. intros v I0. apply H. right. exact I0.
Qed.
Lemma line_free : forall ts us, flips ts us -> Forall (fun t => ~ is_line_end t) ts -> free is_eol_or_terminator us.
Proof.
  intros ts us F H. eapply (flip_free is_line_end); [exact F| | |exact H].
  - intros t E K. unfold is_eol_or_terminator in E. rewrite K in E. discriminate.
  - intros t _ E. unfold is_eol_or_terminator in E. apply orb_true_iff in E. destruct E as [E|E]; apply kind_eqb_eq in E; [left|right]; exact E.
Qed.
Lemma quiet_flips : forall ts us, flips ts us -> still_open ts -> quiet us.
Proof.
  intros ts us F H. eapply (flip_free (fun t => kind t = CollapsibleEnd /\ first_on_line t)); [exact F| | |exact H].
  - intros t E K. unfold is_collapsible_end in E. rewrite K in E. discriminate.
  - intros t _ E. unfold is_collapsible_end in E. apply andb_true_iff in E. destruct E as [E1 E2]. apply kind_eqb_eq in E1. split; [exact E1|]. apply Nat.eqb_eq. exact E2.
Qed.
Lemma line_cols : forall s b o, linked s (o :: b) -> is_eol_or_terminator o = false -> free is_eol_or_terminator b -> free col0 b.
Proof.
  intros s. induction b as [|t b IH]; intros o L N F; [constructor|]. inversion F as [|? ? F1 F2]; subst. constructor.
  - destruct (col0 t) eqn:E; [|reflexivity]. exfalso. destruct (linked_pair s [] o t b L) as (_ & _ & _ & J). apply J in E. unfold is_eol_or_terminator in N.
    destruct E as [E|E]; rewrite E in N; discriminate.
  - apply (IH t); [|exact F1|exact F2]. apply (linked_app s [o]) in L. apply L.
Qed.
Lemma free_impl : forall f g ts, (forall t, g t = true -> f t = true) -> free f ts -> free g ts.
Proof. intros f g ts H F. eapply Forall_impl; [|exact F]. intros t E. destruct (g t) eqn:G; [|reflexivity]. apply H in G. congruence. Qed.
Ltac by_run := let X := fresh in intros ? ? X; exact X.

Lemma code_flips : forall s ts us, flips ts us -> Forall (tok_ok s) ts -> linked s us -> code_here s ts -> opens_code us.
Proof.
  intros s ts us F O L (o & b1 & e & b2 & c & r & -> & [To Co] & N1 & Ke & N2 & [Tc Cc] & Ov). fsplit. unflips.
  match goal with F : Forall2 flip b1 ?x |- _ => rename x into b1', F into F1 end. match goal with F : Forall2 flip b2 ?x |- _ => rename x into b2', F into F2 end.
  match goal with F : Forall2 flip r ?x |- _ => rename x into r', F into F3 end. match goal with O : Forall _ b2 |- _ => rename O into O2 end. match goal with F : flip e ?x |- _ => rename x into e', F into Fe end.
  assert (X2 : free is_backtick3 b2').
  { eapply (flip_free (fence s)); [exact F2| | |exact N2].
    - intros t E K. unfold is_backtick3 in E. rewrite K in E. discriminate.
    - intros t I0 E. unfold is_backtick3 in E. apply andb_true_iff in E. destruct E as [E E3]. apply andb_true_iff in E. destruct E as [E E2]. apply kind_eqb_eq in E. apply Nat.eqb_eq in E2, E3. split; [|exact E2].
      apply (run_of s t Backtick c_backtick 3); [eapply Forall_forall in O2; eauto|exact E|exact E3|reflexivity|discriminate|by_run]. }
  oftoks. pose proof (line_free _ _ F1 N1) as X1.
  exists o, b1', e', b2', c, r'. split; [reflexivity|].
  assert (Bo : is_backtick3 o = true) by (unfold is_backtick3; kinds; reflexivity). split; [exact Bo|]. split; [exact X1|].
  split.
  { apply (free_impl col0); [intros t E; unfold is_backtick3 in E; apply andb_true_iff in E; destruct E as [E _]; apply andb_true_iff in E; apply E|].
    apply (line_cols s b1' o); [|unfold is_eol_or_terminator; kinds; reflexivity|exact X1]. change (o :: b1' ++ e' :: b2' ++ c :: r') with ((o :: b1') ++ e' :: b2' ++ c :: r') in L. apply linked_app in L. apply L. }
  split; [exact (end_flip _ _ Fe Ke)|]. split; [exact X2|]. split; [unfold is_backtick3; kinds; reflexivity|exact (over_flips _ _ F3 Ov)].
Qed.
Lemma embed_flips : forall s ts us, flips ts us -> Forall (tok_ok s) ts -> embed_here s ts -> opens_embed us.
Proof.
  intros s ts us F O (o & b1 & p & b2 & c & r & -> & To & Co & N1 & Q1 & Tp & N2 & Q2 & Tc & Ov). fsplit. unflips.
  match goal with F : Forall2 flip b1 ?x |- _ => rename x into b1', F into F1 end. match goal with F : Forall2 flip b2 ?x |- _ => rename x into b2', F into F2 end.
  match goal with F : Forall2 flip r ?x |- _ => rename x into r', F into F3 end. match goal with O : Forall (tok_ok s) b2 |- _ => rename O into O2 end.
  assert (X2 : free is_right_curly2 b2').
  { eapply (flip_free (is_tok s RightCurlyBrace (s_ "}}"))); [exact F2| | |exact N2].
    - intros t E K. unfold is_right_curly2 in E. rewrite K in E. discriminate.
    - intros t I0 E. unfold is_right_curly2 in E. apply andb_true_iff in E. destruct E as [E E3]. apply kind_eqb_eq in E. apply Nat.eqb_eq in E3.
      apply (run_of s t RightCurlyBrace c_rcurly 2); [eapply Forall_forall in O2; eauto|exact E|exact E3|reflexivity|discriminate|by_run]. }
  assert (X1 : free is_pipe b1') by (eapply none_of_free; [exact F1| | |exact N1]; [discriminate|by_kind]). oftoks.
  exists o, b1', p, b2', c, r'. split; [reflexivity|]. split; [unfold is_left_curly2; kinds; reflexivity|]. split; [exact X1|]. split; [exact (quiet_flips _ _ F1 Q1)|]. split; [unfold is_pipe; kinds; reflexivity|].
  split; [exact X2|]. split; [exact (quiet_flips _ _ F2 Q2)|]. split; [unfold is_right_curly2; kinds; reflexivity|]. exact (over_flips _ _ F3 Ov).
Qed.
Lemma nesting_flips : forall ts us, flips ts us -> forall n, nesting n us = nesting n ts.
Proof.
  intros ts us F. induction F as [|t u ts us Ft F IH]; intros n; [reflexivity|]. cbn [nesting]. destruct Ft as [->|[C ->]].
  - destruct (kind t); auto. destruct n; auto.
  - unfold is_collapsible_start in C. apply andb_true_iff in C. destruct C as [C _]. apply kind_eqb_eq in C. rewrite C. cbn. apply IH.
Qed.
Lemma image_flips : forall s ts us, flips ts us -> Forall (tok_ok s) ts -> image_here s ts -> image_tokens us.
Proof.
  intros s ts us F O (t & o & b & c & p & d & q & -> & Tt & To & Nb & Tc & Tp & Nd & Tq). fsplit. unflips.
  match goal with F : Forall2 flip b ?x |- _ => rename x into b', F into F1 end. match goal with F : Forall2 flip d ?x |- _ => rename x into d', F into F2 end.
  assert (Fb : free is_right_bracket b') by (eapply none_of_free; [exact F1| | |exact Nb]; [discriminate|by_kind]). oftoks.
  exists t, o, b', c, p, d', q. split; [reflexivity|]. unfold is_bang, is_left_bracket, is_right_bracket at 2, is_left_paren. kinds. repeat split; auto. rewrite (nesting_flips _ _ F2). exact Nd.
Qed.
Lemma images_flips : forall s ts, images_here s ts -> forall us, flips ts us -> Forall (tok_ok s) ts -> opens_images us.
Proof.
  intros s ts H. induction H as [i Hi|i e Hi He|i e r Hi He Hr IH]; intros us F O.
  - apply images_last. eapply image_flips; eauto.
  - fsplit. unflips. apply images_eol; [eapply image_flips; eauto|unfold is_eol; rewrite He; reflexivity].
  - fsplit. unflips. apply images_more; [eapply image_flips; eauto|unfold is_eol; rewrite He; reflexivity|apply IH; assumption].
Qed.

(** A token at the start of a line has a line ending in front of it. *)
Lemma line_before : forall s b c r o, linked s (o :: b ++ c :: r) -> is_eol_or_terminator o = false -> col0 c = true ->
  exists b1 e b2, b = b1 ++ e :: b2 /\ free is_eol_or_terminator b1 /\ is_eol_or_terminator e = true.
Proof.
  intros s. induction b as [|t b IH]; intros c r o L N C.
  - exfalso. destruct (linked_pair s [] o c r L) as (_ & _ & _ & J). apply J in C. unfold is_eol_or_terminator in N. destruct C as [C|C]; rewrite C in N; discriminate.
  - destruct (is_eol_or_terminator t) eqn:E; [exists [], t, b; repeat split; [constructor|exact E]|].
    destruct (IH c r t) as (b1 & e & b2 & -> & X1 & X2); [apply (linked_app s [o]) in L; apply L|exact E|exact C|].
    exists (t :: b1), e, b2. repeat split; [constructor; assumption|exact X2].
Qed.
Lemma after_end : forall s a e w, linked s (a ++ e :: w) -> is_eol_or_terminator e = true -> w <> [] -> nth_is 0 col0 w = true.
Proof.
  intros s a e [|t w] L E N; [congruence|]. destruct (linked_pair s a e t w L) as (_ & _ & _ & J). cbn. apply J. unfold is_eol_or_terminator in E. apply orb_true_iff in E.
  destruct E as [E|E]; apply kind_eqb_eq in E; auto.
Qed.
Lemma rest_opens : forall s a e b c r, linked s (a ++ e :: b ++ c :: r) -> is_eol_or_terminator e = true -> quiet b -> is_two_bangs c = true -> highlight_rest (b ++ c :: r).
Proof.
  intros s a e b c r L E F K. assert (C : nth_is 0 col0 (b ++ c :: r) = true) by (apply (after_end s a e); [exact L|exact E|destruct b; discriminate]).
  assert (Kc : kind c = Bang /\ col0 c = true /\ tlen c = 2).
  { unfold is_two_bangs in K. apply andb_true_iff in K. destruct K as [K K3]. apply andb_true_iff in K. destruct K as [K K2]. apply kind_eqb_eq in K. apply Nat.eqb_eq in K3. auto. }
  destruct Kc as (K1 & K2 & K3).
  assert (Bd : highlight_body (b ++ c :: r)) by (exists b, c, r; auto).
  destruct (fseq [is_one_bang; is_space_1] (b ++ c :: r)) as [[o w]|] eqn:Q; [|left; split; assumption].
  right. destruct b as [|t b].
  { cbn [app fseq] in Q. unfold is_one_bang in Q. rewrite K3, andb_false_r in Q. discriminate. }
  cbn [app fseq] in Q. destruct (is_one_bang t) eqn:Kt; [|discriminate]. destruct b as [|u b].
  { cbn [app fseq] in Q. unfold is_space_1 in Q. rewrite K1 in Q. discriminate. }
  cbn [app fseq] in Q. destruct (is_space_1 u) eqn:Ku; [|discriminate]. clear Q.
  inversion F as [|? ? _ F1]; subst. inversion F1 as [|? ? _ F2]; subst.
  assert (L2 : linked s (u :: b ++ c :: r)).
  { change (a ++ e :: (t :: u :: b) ++ c :: r) with (a ++ [e; t] ++ u :: b ++ c :: r) in L. rewrite app_assoc in L. apply linked_app in L. apply L. }
  destruct (line_before s b c r u L2) as (b1 & e2 & b2 & -> & X1 & X2); [unfold is_space_1 in Ku; apply andb_true_iff in Ku; destruct Ku as [Ku _]; apply kind_eqb_eq in Ku; unfold is_eol_or_terminator; rewrite Ku; reflexivity|exact K2|].
  cbn [app] in Bd. rewrite <- app_assoc in Bd. exists t, u, b1, e2, (b2 ++ c :: r). cbn [app]. rewrite <- app_assoc in *. cbn [app] in *. split; [reflexivity|]. split; [exact Kt|]. split; [exact Ku|]. split; [exact X1|].
  apply Forall_app in F2. destruct F2 as [Q1 F2]. inversion F2 as [|? ? _ Q2]; subst.
  pose proof X2 as X3. unfold is_eol_or_terminator in X2. apply orb_true_iff in X2. destruct X2 as [X2|X2]; [left|right; split; [exact X2|exact Bd]].
  split; [exact X2|]. split; [exact Q1|]. exists b2, c, r. split; [reflexivity|]. split; [|split; [exact K|exact Q2]]. apply (after_end s (u :: b1) e2); [exact L2|exact X3|destruct b2; discriminate].
Qed.
Lemma highlight_flips : forall s ts us, flips ts us -> Forall (tok_ok s) ts -> linked s us -> highlight_here s ts -> opens_highlight us.
Proof.
  intros s ts us F O L (o & u & b & c & r & -> & [To Co] & Ku & Nb & [Tc Cc]).
  assert (X : forall u' b' r', flip u u' -> flips b b' -> us = o :: u' :: b' ++ c :: r' -> opens_highlight us).
  2: { fsplit. unflips. eapply X; eauto. }
  intros u' b' r' Fu Fb ->. assert (Ou : tok_ok s u) by (inversion O as [|? ? _ O']; inversion O'; assumption). assert (Oo : tok_ok s o) by (inversion O; assumption).
  assert (Oc : tok_ok s c) by (apply (fun p => proj1 (Forall_forall _ _) p c) in O; [exact O|right; right; apply in_elt]).
  pose proof (quiet_flips _ _ Fb Nb) as Fb'.
  clear F O Fb Nb. apply (tok_len_of s _ _ o Oo) in To. apply (tok_len_of s _ _ c Oc) in Tc. destruct To as [Ko Lo], Tc as [Kc Lc].
  assert (Bo : is_two_bangs o = true) by (unfold is_two_bangs; kinds; reflexivity). assert (Bc : is_two_bangs c = true) by (unfold is_two_bangs; kinds; reflexivity).
  exists o, u', (b' ++ c :: r'). split; [reflexivity|]. split; [exact Bo|]. destruct Ku as [Ku|Ku].
  - left. pose proof (fun N => tok_flip _ _ _ _ _ Fu N Ku) as E. specialize (E ltac:(discriminate)). subst u'. apply (tok_len_of s _ _ u Ou) in Ku. destruct Ku as [Ku Lu].
    assert (Nu : is_eol_or_terminator u = false) by (unfold is_eol_or_terminator; rewrite Ku; reflexivity).
    split; [unfold is_space_1; rewrite Ku, Lu; reflexivity|].
    assert (L2 : linked s (u :: b' ++ c :: r')) by (apply (linked_app s [o]) in L; apply L).
    destruct (line_before s b' c r' u L2 Nu (col0_of _ Cc)) as (b1 & e & b2 & -> & X1 & X2).
    apply Forall_app in Fb'. destruct Fb' as [Q1 Fb']. inversion Fb' as [|? ? _ Q2]; subst.
    rewrite <- app_assoc in *. cbn [app] in *. exists b1, e, (b2 ++ c :: r'). split; [reflexivity|]. split; [exact X1|]. split; [exact Q1|]. split; [exact X2|]. split.
    + destruct b1 as [|t b1]; cbn.
      * destruct (col0 e) eqn:C; [|reflexivity]. destruct (linked_pair s [] u e _ L2) as (_ & _ & _ & J). apply J in C. destruct C; congruence.
      * destruct (col0 t) eqn:C; [|reflexivity]. destruct (linked_pair s [] u t _ L2) as (_ & _ & _ & J). apply J in C. destruct C; congruence.
    + apply (rest_opens s (u :: b1) e); assumption.
  - right. rewrite (eol_flip _ _ Fu Ku) in *. split; [unfold is_eol; rewrite Ku; reflexivity|]. apply (rest_opens s [o] u); [exact L|apply end_of; left; exact Ku|exact Fb'|exact Bc].
Qed.
Lemma block_flips : forall s ts us, flips ts us -> Forall (tok_ok s) ts -> block_here s ts -> opens_block us.
Proof.
  intros s ts us F O [H|[H|[H|H]]].
  - left. eapply heading_flips; eauto.
  - right; left. eapply break_flips; eauto.
  - do 2 right; left. eapply list_flips; eauto.
  - do 3 right. eapply images_flips; eauto.
Qed.
Lemma long_block_flips : forall s ts us, flips ts us -> Forall (tok_ok s) ts -> linked s us -> long_block_here s ts -> opens_ahead us.
Proof.
  intros s ts us F O L [H|[H|H]].
  - left. eapply code_flips; eauto.
  - right; left. eapply embed_flips; eauto.
  - right; right. eapply highlight_flips; eauto.
Qed.
Lemma no_blocks_at : forall k1 t k2 rest, no_blocks (k1 ++ t :: k2) rest -> is_no_block t (yields k2 ++ rest).
Proof. induction k1 as [|u k1 IH]; intros t k2 rest H; [apply H|]. apply IH. apply H. Qed.

(** A node among the children of a node. *)
Lemma node_in : forall s k m1 n v mid y m2, Forall not_skip k -> tevents_all s k = m1 ++ (Start n, v) :: mid ++ (End n, y) :: m2 -> balanced (map fst m1) -> balanced (map fst mid) ->
  exists k1 o k' c k2, k = k1 ++ Node n o k' c :: k2 /\ m1 = tevents_all s k1 /\ v = ttexts s o /\ mid = tevents_all s k' /\ m2 = tevents_all s k2 /\ y = ttexts s c.
Proof.
  intros s. induction k as [|t k IH]; intros m1 n v mid y m2 NS E B B2; [destruct m1; discriminate|]. inversion NS as [|? ? N1 N2]; subst.
  change (tevents_all s (t :: k)) with (tevents s t ++ tevents_all s k) in E. destruct t as [b|b|n' o k' c].
  - destruct m1 as [|e m1]; cbn [tevents app] in E; [discriminate|]. injection E as E1 E2. subst e. cbn [map fst] in B. inversion B as [|l B' |]; subst.
    destruct (IH _ _ _ _ _ _ N2 E2 B' B2) as (k1 & o & k' & c & k2 & -> & -> & -> & -> & -> & ->). exists (Leaf b :: k1), o, k', c, k2. auto 8.
  - destruct N1.
  - cbn [tevents] in E. fold (tevents_all s k') in E. destruct m1 as [|e m1].
    { cbn [app] in E. injection E as <- <- E. rewrite <- app_assoc in E. cbn [app] in E.
      pose proof (f_equal (map fst) E) as M. rewrite !map_app in M. cbn in M. apply balanced_unique in M; [|apply tevents_balanced|exact B2].
      apply (f_equal (@List.length _)) in M. rewrite !map_length in M. assert (Q : tevents_all s k' = mid) by (eapply app_same_length; eauto).
      subst mid. apply app_inv_head in E. injection E as <- E. exists [], o, k', c, k. auto 8. }
    cbn [app] in E. injection E as E1 E2. subst e.
    cbn [map fst] in B. inversion B as [| |n0 mid0 rest Bm Br [E3 E4]]; subst.
    rewrite <- app_assoc in E2. cbn [app] in E2.
    assert (X : exists m3 y m4, m1 = m3 ++ (End n', y) :: m4 /\ map fst m3 = mid0 /\ map fst m4 = rest).
    { clear - E4. symmetry in E4. revert mid0 E4. induction m1 as [|[e w] m1 IH]; intros mid0 E4; [destruct mid0; discriminate|]. destruct mid0 as [|f mid0]; cbn in E4; injection E4 as -> E4.
      - exists [], w, m1. auto.
      - destruct (IH _ E4) as (m3 & y & m4 & -> & <- & <-). exists ((f, w) :: m3), y, m4. auto. }
    destruct X as (m3 & y0 & m4 & -> & <- & <-). rewrite <- app_assoc in E2. cbn [app] in E2.
    pose proof (f_equal (map fst) E2) as M. rewrite !map_app in M. cbn in M. apply balanced_unique in M; [|apply tevents_balanced|exact Bm].
    apply (f_equal (@List.length _)) in M. rewrite !map_length in M. assert (Q : tevents_all s k' = m3) by (eapply app_same_length; eauto).
    subst m3. apply app_inv_head in E2. injection E2 as <- E2. destruct (IH _ _ _ _ _ _ N2 E2 Br B2) as (k1 & o1 & k1' & c1 & k2 & -> & -> & -> & -> & -> & ->).
    exists (Node n' o k' c :: k1), o1, k1', c1, k2. split; [reflexivity|]. split; [|auto 8]. cbn [tevents_all flat_map tevents]. fold (tevents_all s k'). cbn. rewrite <- app_assoc. reflexivity.
Qed.

Lemma no_block_event : forall s ops es a x0 m1 x mid y m2 y0 b, parse s = Ok ops -> reads s ops es ->
  es = a ++ (Start NDocument, x0) :: (m1 ++ (Start NParagraph, x) :: mid ++ (End NParagraph, y) :: m2) ++ (End NDocument, y0) :: b ->
  balanced (map fst m1) -> balanced (map fst mid) -> balanced (map fst m2) ->
  exists ts1 ts2 ts3 x1 x2, lex s = Ok (ts1 ++ ts2 ++ ts3)
    /\ concat_texts s ts1 = Ok x1 /\ covered (a ++ (Start NDocument, x0) :: m1) x1
    /\ concat_texts s ts2 = Ok x2 /\ covered mid x2 /\ ~ block_here s ts2 /\ ~ long_block_here s (ts2 ++ ts3).
Proof.
  intros s ops es a x0 m1 x mid y m2 y0 b H R E B1 Bm B2.
  assert (B : balanced (map fst (m1 ++ (Start NParagraph, x) :: mid ++ (End NParagraph, y) :: m2))).
  { rewrite map_app. apply balanced_app; [exact B1|]. cbn. rewrite map_app. constructor; [exact Bm|exact B2]. }
  destruct (node_tight _ _ _ _ _ _ _ _ _ H R E B) as (o & k & c & ta & tb & W & Fl & -> & M & -> & Cv & T & _).
  inversion W as [| |? ? ? ? Wk Sh]; subst.
  assert (NS : Forall not_skip k) by (eapply shape_not_skip; [exact Sh|discriminate]).
  symmetry in M. destruct (node_in s k _ _ _ _ _ _ NS M B1 Bm) as (k1 & po & pk & pc & k2 & -> & -> & -> & -> & -> & ->).
  apply Forall_app in NS. destruct NS as [NS1 _].
  apply Forall_app in Wk. destruct Wk as [Wk1 Wk2]. inversion Wk2 as [|? ? Wp _]; subst. inversion Wp as [| |? ? ? ? Wpk Shp]; subst.
  assert (NSp : Forall not_skip pk) by (eapply shape_not_skip; [exact Shp|discriminate]).
  cbn [tight] in T. apply no_blocks_at in T. cbn [is_no_block] in T. destruct T as [Tp Ta].
  assert (po = [] /\ pc = []) as [-> ->] by (cbn [shape] in Shp; tauto).
  pose proof (flips_linked s _ _ Fl (spec_linked s)) as L.
  rewrite yields_app in Fl, L. cbn [yields flat_map yield] in Fl, L. fold (yields pk) in Fl, L. fold (yields k2) in Fl, L.
  match type of Fl with flips _ ?X =>
    replace X with ((ta ++ o ++ yields k1) ++ yields pk ++ (yields k2 ++ c ++ tb)) in Fl, L by (repeat (rewrite ?app_nil_r, <- ?app_assoc; cbn [app]); reflexivity) end.
  destruct (source_split _ _ _ Fl) as (ts1 & ts' & EL & F1 & F2 & C1 & _ & TO).
  apply flips_split in F2. destruct F2 as (ts2 & ts3 & -> & F2 & F3).
  apply Forall_app in TO. destruct TO as [_ TO]. pose proof TO as TOa. apply Forall_app in TO. destruct TO as [TO2 _].
  apply linked_app in L. destruct L as [L1 L2]. pose proof L2 as L3. apply linked_app in L2. destruct L2 as [L2 _].
  exists ts1, ts2, ts3, (ttexts s (ta ++ o ++ yields k1)), (ttexts s ts2). split; [exact EL|]. split; [exact C1|]. split.
  { rewrite !ttexts_app. apply covered_app; [exact Cv|]. constructor.
    apply linked_app in L1. destruct L1 as [_ L1]. apply linked_app in L1. destruct L1 as [_ L1].
    apply trees_covered_of; [exact L1| |exact NS1]. eapply Forall_impl; [|exact Wk1]. intros w Ww. apply tree_covered. exact Ww. }
  split.
  { apply concat_of_ttexts. eapply Forall_impl; [|exact TO2]. intros z (w & Hw & _). exists w. exact Hw. }
  split.
  { rewrite <- (flips_ttexts s _ _ F2). apply trees_covered_of; [exact L2| |exact NSp]. eapply Forall_impl; [|exact Wpk]. intros w Ww. apply tree_covered. exact Ww. }
  split; intros Hb; [exact (Tp (block_flips s _ _ F2 TO2 Hb))|]. exact (Ta (long_block_flips s _ _ (Forall2_app F2 F3) TOa L3 Hb)).
Qed.
