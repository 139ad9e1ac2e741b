(** The text of NormalSpec.v on units: inline content in which every character is escaped. *)
From Coq Require Import String.
From Verif Require Import Base Lexer LexSpec LexProofs LexFacts Ops Parser FParser TokFacts ToYamd TreeAst Ast AstSpec NormalSpec Tame Units ULex Stops Inline AstUnits Calm Blocks Docs Highlight.

Definition eu (x : str) : list uchar := map escd x.

Lemma eu_render : forall x, render (eu x) = escaped x.
Proof. induction x as [|c x IH]; [reflexivity|]. cbn. unfold eu, escaped in IH. rewrite IH. reflexivity. Qed.
Lemma eu_chars : forall x, chars (eu x) = x.
Proof. induction x as [|c x IH]; [reflexivity|]. cbn. unfold eu in IH. rewrite IH. reflexivity. Qed.
Lemma eu_absent : forall c x, absent c (eu x).
Proof. intros c x H. apply in_map_iff in H. destruct H as (d & H & _). discriminate H. Qed.
Lemma eu_raw_at : forall c x, raw_at c (eu x) = false.
Proof. intros c [|d x]; reflexivity. Qed.
Lemma eu_ne : forall x, x <> [] -> eu x <> [].
Proof. intros [|c x] H; [congruence|discriminate]. Qed.
Lemma eu_fine : forall x, fine (eu x).
Proof. intros x. split; [|apply eu_absent]. apply Forall_map, Forall_forall. intros c _ H. discriminate H. Qed.

Definition ev (b : bold_node) : vitem := match b with BText x => VText (eu x) | BItalic x => VItalic (eu x) | BStrike x => VStrike (eu x) end.
Definition ep (p : par_node) : uitem :=
  match p with
  | PText x => UText (eu x) | PItalic x => UItalic (eu x) | PStrike x => UStrike (eu x) | PEmphasis x => UEmph (eu x) | PCodeSpan x => UCode (eu x)
  | PAnchor t u => UAnchor (eu t) (eu u) | PBold l => UBold (map ev l)
  end.
Definition eps (b : list par_node) : list uitem := map ep b.

Lemma ev_erase : forall l, map verase (map ev l) = l.
Proof. induction l as [|b l IH]; [reflexivity|]. cbn [map]. rewrite IH. destruct b; cbn [ev verase]; rewrite eu_chars; reflexivity. Qed.
Lemma eps_erase : forall b, map uerase (eps b) = b.
Proof. unfold eps. induction b as [|p b IH]; [reflexivity|]. cbn [map]. rewrite IH. destruct p; cbn [ep uerase]; rewrite ?eu_chars, ?ev_erase; reflexivity. Qed.

Lemma ev_render : forall l, render (flat_map vflat (map ev l)) = flat_map src_bold l.
Proof.
  induction l as [|b l IH]; [reflexivity|]. cbn [map flat_map]. rewrite render_app, IH. f_equal.
  destruct b; cbn [ev vflat src_bold]; unfold wrap, d_italic, d_strike; rewrite ?render_app, eu_render; reflexivity.
Qed.
Lemma link_render : forall t u, render (ulink (eu t) (eu u)) = src_link t u.
Proof. intros t u. unfold ulink. rewrite !render_app, !eu_render. reflexivity. Qed.
Lemma eps_render : forall b, render (uflats (eps b)) = src_inlines b.
Proof.
  unfold uflats, src_inlines, eps. induction b as [|p b IH]; [reflexivity|]. cbn [map flat_map]. rewrite render_app, IH. f_equal.
  destruct p; cbn [ep uflat src_inline]; unfold wrap, d_italic, d_strike, d_emph, d_code, d_bold; rewrite ?link_render, ?render_app, ?eu_render, ?ev_render; reflexivity.
Qed.

(** Delimiters are the only characters without an escape. *)
Definition clean (us : list uchar) : Prop := forall c, In (raw c) us -> In c delims.
Lemma clean_app : forall a b, clean a -> clean b -> clean (a ++ b).
Proof. intros a b Ha Hb c H. apply in_app_or in H. destruct H; auto. Qed.
Lemma clean_eu : forall x, clean (eu x).
Proof. intros x c H. exfalso. exact (eu_absent c x H). Qed.
Lemma clean_wrap : forall d us, clean d -> clean us -> clean (wrap d us).
Proof. intros. unfold wrap. auto using clean_app. Qed.
Lemma clean_raws : forall l, (forall c, In c l -> In c delims) -> clean (map raw l).
Proof. intros l H c Hc. apply in_map_iff in Hc. destruct Hc as (d & E & Hd). injection E as <-. auto. Qed.
Ltac raws l := apply (clean_raws l); intros ? ?; cbn in *; tauto.
Lemma clean_link : forall t u, clean (ulink (eu t) (eu u)).
Proof. intros t u. unfold ulink. repeat apply clean_app; try apply clean_eu; [raws [c_lsquare]|raws [c_rsquare]|raws [c_lparen]|raws [c_rparen]]. Qed.
Lemma clean_vs : forall l, clean (flat_map vflat (map ev l)).
Proof.
  induction l as [|b l IH]; [intros c []|]. cbn [map flat_map]. apply clean_app; [|exact IH].
  destruct b; cbn [ev vflat]; [apply clean_wrap; [raws [c_underscore]|apply clean_eu]|apply clean_wrap; [raws [c_tilde; c_tilde]|apply clean_eu]|apply clean_eu].
Qed.
Lemma clean_ep : forall p, clean (uflat (ep p)).
Proof.
  intros p. destruct p; cbn [ep uflat]; [apply clean_link|apply clean_wrap; [raws [c_star; c_star]|apply clean_vs]|apply clean_wrap; [raws [c_underscore]|apply clean_eu]
    |apply clean_wrap; [raws [c_tilde; c_tilde]|apply clean_eu]|apply clean_eu|apply clean_wrap; [raws [c_backtick]|apply clean_eu]|apply clean_wrap; [raws [c_star]|apply clean_eu]].
Qed.
Lemma clean_eps : forall b, clean (uflats (eps b)).
Proof. unfold uflats, eps. induction b as [|p b IH]; [intros c []|]. cbn [map flat_map]. apply clean_app; [apply clean_ep|exact IH]. Qed.

Lemma clean_absent : forall us c, clean us -> ~ In c delims -> absent c us.
Proof. intros us c H N X. exact (N (H c X)). Qed.
Ltac nodelim := let X := fresh in cbn; intros X; repeat (destruct X as [X|X]; [discriminate X|]); exact X.
Lemma clean_fine : forall us, clean us -> fine us.
Proof.
  intros us H. split; [|apply clean_absent; [exact H|nodelim]]. apply Forall_forall. intros [e c] Hu E Ec. cbn in E, Ec. subst. specialize (H c_bslash Hu). revert H. nodelim.
Qed.

(** ** The items are good *)

Lemma neighbours_chain : forall {A} (bad : A -> A -> bool) l, no_neighbours bad l -> chain (fun x y => bad x y = false) l.
Proof. intros A bad l. induction l as [|x l IH]; [exact (fun _ => I)|]. destruct l as [|y l]; [intros _; split; exact I|]. intros [H1 H2]. split; [exact H1|exact (IH H2)]. Qed.
Lemma chain_and : forall {A} (P Q R : A -> A -> Prop) l, (forall x y, P x y -> Q x y -> R x y) -> chain P l -> chain Q l -> chain R l.
Proof.
  intros A P Q R l H. induction l as [|x l IH]; [auto|]. intros [H1 H2] [H3 H4]. split; [destruct l; auto|auto].
Qed.

Lemma ev_good : forall l, normal_bold l -> map ev l <> [] /\ Forall vgood (map ev l) /\ chain vnext (map ev l).
Proof.
  intros l (NE & F & N1 & N2). split; [destruct l; [congruence|discriminate]|]. split.
  - apply Forall_map, Forall_forall. intros b Hb. destruct b; cbn [ev vgood].
    + apply eu_absent.
    + split; [apply eu_ne, F; auto|apply eu_absent].
    + split; [apply eu_ne, F; auto|]. repeat split; apply eu_absent.
  - apply (chain_map _ _ ev (fun x y => both is_btext x y = false /\ both is_bstrike x y = false)); [intros [] [] [H1 H2]; try exact I; discriminate|].
    eapply chain_and; [|apply neighbours_chain; exact N1|apply neighbours_chain; exact N2]. auto.
Qed.
Lemma ep_good : forall p, normal_inline p -> ugood (ep p).
Proof.
  intros p H. destruct p; cbn [ep ugood normal_inline] in *; try (split; [apply eu_ne; exact H|]); repeat split; try apply eu_absent; apply (ev_good _ H).
Qed.
Lemma eps_good : forall b, normal_text b -> ugoods (eps b).
Proof.
  intros b (F & N1 & N2). split; [apply Forall_map; eapply Forall_impl; [|exact F]; exact ep_good|].
  apply (chain_map _ _ ep (fun x y => both is_ptext x y = false /\ fuse x y = false)); [intros [] [] [H1 H2]; try exact I; discriminate|].
  eapply chain_and; [|apply neighbours_chain; exact N1|apply neighbours_chain; exact N2]. auto.
Qed.
Lemma eps_trim : forall b, (forall b1 x, b = b1 ++ [PText x] -> ~ ends_with_nl x) -> trim_ok (eps b).
Proof.
  intros b H r us E. destruct b as [|p b _] using rev_ind; [destruct r; discriminate E|]. unfold eps in E. rewrite map_app in E. cbn [map] in E. apply app_inj_tail in E. destruct E as [_ E].
  destruct p; try discriminate E. injection E as <-. rewrite eu_chars. specialize (H b s eq_refl). clear - H. unfold trim_end. destruct s as [|c x _] using rev_ind; [reflexivity|].
  rewrite rev_app_distr. cbn [rev app trim_start]. destruct (char_eqb c_nl c) eqn:Ec; [|cbn [rev]; rewrite rev_involutive; reflexivity].
  exfalso. apply N.eqb_eq in Ec. subst c. apply H. exists x. reflexivity.
Qed.
