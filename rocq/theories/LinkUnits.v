(** Where a link is read, the text contains one: brackets and parentheses in the units. *)
From Coq Require Import String.
From Verif Require Import Base Lexer LexSpec LexProofs LexFacts Ops Parser FParser TokFacts Refine Lines Ast Units ULex Stops.

Lemma cov_text : forall s b ts us, cov s b ts us -> ttexts s ts = chars us.
Proof.
  intros s b ts us H. induction H as [b|b t ts us g r Hf U Cb Ct Cl Cr IH]; [reflexivity|]. destruct (utok_ok _ _ _ _ Hf U) as (-> & _). rewrite ttexts_cons, Ct, IH, chars_app. reflexivity.
Qed.

Lemma chars_length : forall us, List.length (chars us) = List.length us.
Proof. induction us as [|u us IH]; cbn; congruence. Qed.

(** A group with a raw single-character token in it is that token. *)
Lemma single_group : forall k g c k', group_ok k g -> In (raw c) g -> single_kind c = Some k' -> k = k'.
Proof.
  intros k g c k' G Hin Hk.
  assert (Sc : special c = true).
  { unfold single_kind in Hk. repeat match type of Hk with (if char_eqb c ?d then _ else _) = _ => destruct (char_eqb c d) eqn:?E; [apply char_eqb_eq in E; subst c; reflexivity|clear E] end. discriminate. }
  assert (L : forall d n, In (raw c) (repeat (raw d) (S n)) -> c = d) by (intros d n X; apply repeat_spec in X; injection X as ->; reflexivity).
  destruct k; cbn [group_ok] in G;
    try (destruct G as (d & n & K & ->); apply L in Hin; subst d; cbn in K; injection K as <-; vm_compute in Hk; congruence).
  - subst g. destruct Hin as [X|[X|[]]]; injection X as <-; vm_compute in Hk; discriminate.
  - subst g. destruct Hin as [X|[]]; injection X as <-; vm_compute in Hk; discriminate.
  - subst g. destruct Hin as [X|[X|[]]]; injection X as <-; vm_compute in Hk; discriminate.
  - subst g. destruct Hin as [X|[X|[]]]; injection X as <-; vm_compute in Hk; discriminate.
  - destruct G as (u & g' & -> & G1 & G2). exfalso. destruct Hin as [->|Hin].
    + destruct G2 as [X|X]; [discriminate X|]. change (special c = false) in X. congruence.
    + rewrite Forall_forall in G1. destruct (G1 _ Hin) as [_ X]. change (special c = false) in X. congruence.
Qed.

Lemma cov_single : forall s b t ts us c k, cov s b (t :: ts) us -> kind t = k -> single_kind c = Some k -> exists b' r, us = raw c :: r /\ cov s b' ts r /\ tlen t = 1.
Proof.
  intros s b t ts us c k H K Sk. pose proof (single_test _ _ _ _ _ _ _ H Sk) as R. rewrite (proj2 (kind_eqb_eq _ _) K) in R. symmetry in R. apply raw_at_true in R. destruct R as (r & ->).
  inversion H as [|? ? ? ? g r' Hf U Cb Ct Cl Cr]; subst. pose proof (utok_single c _ r Sk) as U'. change ([raw c] ++ r) with (raw c :: r) in U'. rewrite U in U'. injection U' as -> ->.
  eexists _, r. split; [reflexivity|]. split; [exact Cr|]. rewrite Cl.
  unfold single_kind in Sk. repeat match type of Sk with (if char_eqb c ?d then _ else _) = _ => destruct (char_eqb c d) eqn:?E; [apply char_eqb_eq in E; subst c; reflexivity|clear E] end. discriminate.
Qed.

(** The units of the first tokens. *)
Lemma cov_front : forall s ts1 b ts2 us, cov s b (ts1 ++ ts2) us -> exists b' u1 u2, us = u1 ++ u2 /\ cov s b' ts2 u2
  /\ forall c k, single_kind c = Some k -> In (raw c) u1 -> exists t, In t ts1 /\ kind t = k /\ tlen t = 1.
Proof.
  intros s. induction ts1 as [|t ts1 IH]; intros b ts2 us H.
  - exists b, [], us. split; [reflexivity|]. split; [exact H|]. intros c k _ [].
  - cbn [app] in H. inversion H as [|? ? ? ? g r Hf U Cb Ct Cl Cr]; subst. destruct (utok_ok _ _ _ _ Hf U) as (-> & _ & G).
    destruct (IH _ _ _ Cr) as (b' & u1 & u2 & -> & H2 & H3). exists b', (g ++ u1), u2. split; [apply app_assoc|]. split; [exact H2|].
    intros c k K Hin. apply in_app_iff in Hin. destruct Hin as [Hin|Hin].
    + exists t. split; [left; reflexivity|]. pose proof (single_group _ _ _ _ G Hin K) as E. split; [exact E|]. destruct (cov_single _ _ _ _ _ _ _ H E K) as (_ & _ & _ & _ & X). exact X.
    + destruct (H3 c k K Hin) as (t' & A & B). exists t'. split; [right; exact A|exact B].
Qed.
Lemma fanchor_opens : forall s st b ts A B x rest, cov s b ts (A ++ B) -> seam A B -> A <> [] -> ustop st (aft b A) B = true -> fanchor st ts = Some (x, rest) ->
  exists t u v, A = raw c_lsquare :: t ++ raw c_rsquare :: raw c_lparen :: u ++ raw c_rparen :: v /\ absent c_rsquare t.
Proof.
  intros s st b ts A B x rest H Hs NA Hst F. destruct (cov_split _ _ _ _ _ H Hs) as (ts1 & ts2 & E & _ & H2 & NT & _). specialize (NT NA).
  rewrite <- (stopped_units _ _ _ _ st H2) in Hst.
  unfold fanchor, ftitle, fdelim in F. destruct ts as [|o ts]; [discriminate|]. destruct (is_left_bracket o) eqn:Ko; [|discriminate].
  destruct (until st is_right_bracket ts) as [[[body c] r1]|] eqn:U; [|discriminate]. destruct (until_app _ _ _ _ _ _ U) as [-> Kc]. destruct (until_awake _ _ _ _ _ _ U) as [W1 Fb].
  unfold fdest in F. destruct r1 as [|p r1]; [discriminate|]. destruct (is_left_paren p) eqn:Kp; [|discriminate].
  destruct (dest_scan st 1 r1) as [[[d q] r2]|] eqn:D; [|discriminate]. destruct (dest_scan_app _ _ _ _ _ _ D) as [-> Kq]. destruct (dest_scan_awake _ _ _ _ _ _ (le_n 1) D) as [W2 _].
  destruct ts1 as [|o' ts1]; [congruence|]. cbn [app] in E. injection E as <- E. clear NT.
  assert (W : awake st ((body ++ [c]) ++ [p] ++ (d ++ [q])) r2).
  { apply awake_app. split; [cbn [app]; rewrite <- app_assoc; exact W1|]. apply awake_app. split; [|exact W2]. cbn. split; [|exact I]. apply paren_awake. exact Kp. }
  destruct (awake_before st _ _ ts1 ts2 W) as (r & ->); [rewrite <- E, <- !app_assoc; reflexivity|exact Hst|]. clear W W1 W2.
  apply andb_true_iff in Ko, Kc, Kp. destruct Ko as [Ko _], Kc as [Kc _], Kp as [Kp _]. apply kind_eqb_eq in Ko, Kc, Kp.
  repeat (rewrite <- app_assoc in E; cbn [app] in E). apply app_inv_head in E. injection E as E. apply app_inv_head in E. injection E as ->.
  destruct (cov_single _ _ _ _ _ c_lsquare _ H Ko eq_refl) as (b1 & A1 & E1 & C1 & _).
  destruct (cov_front _ _ _ _ _ C1) as (b2 & t & A2 & -> & C2 & Ht).
  destruct (cov_single _ _ _ _ _ c_rsquare _ C2 Kc eq_refl) as (b3 & A3 & -> & C3 & _).
  destruct (cov_single _ _ _ _ _ c_lparen _ C3 Kp eq_refl) as (b4 & A4 & -> & C4 & _).
  destruct (cov_front _ _ _ _ _ C4) as (b5 & u & A5 & -> & C5 & _).
  destruct (cov_single _ _ _ _ _ c_rparen _ C5 Kq eq_refl) as (b6 & A6 & -> & C6 & _).
  destruct (cov_front _ _ _ _ _ C6) as (b7 & v & A7 & -> & C7 & _).
  assert (EB : A7 = B).
  { apply cov_text in C7. apply cov_text in H2. rewrite H2 in C7. apply (f_equal (@List.length _)) in C7. rewrite !chars_length in C7.
    set (P := raw c_lsquare :: t ++ raw c_rsquare :: raw c_lparen :: u ++ raw c_rparen :: v) in *.
    assert (E2 : A ++ B = P ++ A7) by (rewrite E1; subst P; repeat (cbn [app]; rewrite <- app_assoc); reflexivity).
    assert (L : List.length A = List.length P) by (apply (f_equal (@List.length _)) in E2; rewrite !app_length in E2; lia).
    destruct (app_eq_app _ _ _ _ E2) as (l & [[X Y]|[X Y]]); rewrite X, app_length in L; (destruct l as [|? ?]; [|cbn in L; lia]); rewrite Y; reflexivity. }
  subst A7. exists t, u, v. split.
  - apply (app_inv_tail B). rewrite E1. repeat (cbn [app]; rewrite <- app_assoc). reflexivity.
  - intros X. destruct (Ht c_rsquare _ eq_refl X) as (w & W & K & L). rewrite Forall_forall in Fb. specialize (Fb w W). unfold is_right_bracket in Fb. rewrite K, L in Fb. discriminate.
Qed.
