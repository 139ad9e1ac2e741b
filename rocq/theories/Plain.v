(** Corollaries of the round trip: escaped and plain text, nesting, joined documents. *)
From Coq Require Import String.
From Verif Require Import Base Lexer LexSpec LexProofs LexFacts Ops Parser FParser TokFacts ToYamd TreeAst Ast Api StreamSpec AstSpec Tame Mild Units ULex Stops Inline AstUnits Calm Blocks Docs Highlight Lists UBlocks UList UDocs.

Lemma round_trip : forall y, tame_doc y -> deserialize (display_yamd y) = Ok y.
Proof. intros y T. rewrite deserialize_eq, tame_round_trip by exact T. reflexivity. Qed.
Lemma block_round_trip : forall y, tame_block false y -> deserialize (display_yamd (mk_yamd None [y])) = Ok (mk_yamd None [y]).
Proof. intros y T. apply round_trip. split; [exact I|]. split; [constructor; [exact T|constructor]|exact I]. Qed.

(** ** A backslash in front of every character *)

Definition escape_all (x : str) : str := flat_map (fun c => [c_bslash; c]) x.
Lemma escape_all_render : forall x, render (map escd x) = escape_all x.
Proof. induction x as [|c x IH]; [reflexivity|]. cbn. rewrite IH. reflexivity. Qed.
Lemma escaped_absent : forall c x, absent c (map escd x).
Proof. intros c x H. apply in_map_iff in H. destruct H as (d & E & _). discriminate. Qed.
Lemma escaped_raw : forall c x, raw_at c (map escd x) = false.
Proof. intros c [|d x]; reflexivity. Qed.
Lemma escape_all_text : forall x, x <> [] -> deserialize (escape_all x) = Ok (mk_yamd None [YParagraph [PText x]]).
Proof.
  intros x NE. rewrite deserialize_eq, <- escape_all_render. f_equal. set (us := map escd x). assert (NU : us <> []) by (destruct x; [congruence|discriminate]).
  assert (Ex : chars us = x) by (unfold us; clear; induction x as [|c x IH]; [reflexivity|cbn; rewrite IH; reflexivity]).
  assert (F : fine us) by (split; [unfold us; apply Forall_map; apply Forall_forall; intros c _; cbn; discriminate|apply escaped_absent]).
  assert (St : starts us).
  { split; [exact NU|]. split; [apply raw2_hd, escaped_raw|]. split; [apply raw2_hd, escaped_raw|]. unfold us. rewrite escaped_raw. discriminate. }
  assert (P : parses 0 us [YParagraph [PText x]]).
  { assert (E : uflats [UText us] = us) by (cbn; apply app_nil_r). rewrite <- E at 1. replace [PText x] with (map uerase [UText us]) by (cbn [map uerase]; rewrite Ex; reflexivity).
    apply paragraph_parses; rewrite ?E.
    - split; [repeat constructor; try exact NU; apply escaped_absent|repeat constructor].
    - exact NU.
    - split; [|congruence]. apply (nosub_absent _ (raw c_nl)); [left; reflexivity|apply escaped_absent].
    - intros B _ _. unfold us. destruct x as [|c x]; [congruence|]. repeat split; reflexivity.
    - intros s t ts B C _ _. apply (fimages_none s true t ts (us ++ B) _ C). unfold us. destruct x as [|c x]; [congruence|]. reflexivity. }
  pose proof (document_plain [(us, [YParagraph [PText x]])]) as D. cbn [map fst ujoin flat_map snd app] in D. rewrite app_nil_r in D. apply D; [exact F|constructor; [split; assumption|constructor]|exact I|].
  unfold us. destruct x; reflexivity.
Qed.

(** ** Plain text *)

(** Characters that start a construct anywhere, and the ones that start a block at its first place. *)
Definition special : list char := [c_bslash; c_star; c_underscore; c_tilde; c_backtick; c_lsquare; c_lcurly; c_percent; c_nl; c_cr].
Definition block_special : list char := [c_hash; c_bang; c_minus; c_plus].
Definition plain (x : str) : Prop :=
  x <> [] /\ (forall c, In c x -> ~ In c special) /\ match x with c :: _ => ~ In c block_special | [] => True end.
Lemma plain_units : forall x, (forall c, In c x -> ~ In c special) -> u_text x = bare x.
Proof.
  intros x H. rewrite <- (u_text_chars x) at 2. apply bare_eq. intros [[] c] Hu; [|reflexivity]. exfalso.
  assert (Hc : In c x) by (rewrite <- (u_text_chars x); apply in_map_iff; exists (true, c); split; [reflexivity|exact Hu]). apply (H c Hc). apply u_text_escd in Hu. unfold special. cbn in *. tauto.
Qed.
Lemma plain_tame : forall x, plain x -> tame_block false (YParagraph [PText x]).
Proof.
  intros x (NE & H & S). split; [discriminate|]. split.
  - split; [|split; exact I]. constructor; [|constructor]. split; [exact NE|]. intros X. apply (H c_cr X). cbn. tauto.
  - split; [|intros []]. intros [[L _] _]. destruct x as [|c x]; [congruence|]. cbn in L. destruct (char_eqb c c_hash) eqn:E; [|lia]. apply N.eqb_eq in E. subst c. apply S. left. reflexivity.
Qed.
Lemma plain_display : forall x, plain x -> display_yamd (mk_yamd None [YParagraph [PText x]]) = x.
Proof.
  intros x P. pose proof (plain_tame x P) as T. unfold display_yamd, display_body. cbn [metadata body map join]. rewrite (u_block_render _ _ (tame_mild _ _ T)). destruct P as (NE & H & S). cbn [u_block]. unfold u_pars. cbn [map uflats flat_map u_par uflat].
  rewrite app_nil_r, plain_units by exact H. rewrite <- (render_bare x) at 2. apply f_equal. unfold u_lead. destruct (existsb (fun p => follows p (bare x)) lead_pats) eqn:E; [|reflexivity].
  apply u_lead_raw in E. destruct E as (c & r & E & B). destruct x as [|d x]; [congruence|]. injection E as -> _. exfalso. apply S. unfold blockmark in B. cbn in *. tauto.
Qed.

(** ** Nesting *)

Definition nest_text (title : str) (x : str) : str := (s_ "{% " ++ title ++ nl ++ x ++ nl ++ s_ "%}")%list.
Fixpoint nested_text (titles : list str) (x : str) : str :=
  match titles with [] => x | t :: r => nest_text t (nested_text r x) end.
Fixpoint nested (titles : list str) (y : ynode) : ynode :=
  match titles with [] => y | t :: r => YCollapsible t [nested r y] end.
Fixpoint depth (y : ynode) : nat :=
  match y with YCollapsible _ b => S (fold_right Nat.max 0 (map depth b)) | _ => 0 end.

(** A title that [Display] writes as it is. *)
Definition plain_title (t : str) : Prop := ~ In c_bslash t /\ ~ In c_percent t /\ ~ In c_nl t /\ ~ In c_cr t /\ ~ begins [c_space] t.
Lemma u_ctitle_escd : forall t c, In (escd c) (u_ctitle t) -> c = c_bslash \/ c = c_percent.
Proof. intros t c H. unfold u_ctitle, pp in H. destruct (more_escd _ _ _ _ (umark0_more _ _) H) as [X|X]; [left; exact (u0_escd _ _ X)|]. destruct X as [X|[X|[]]]; try discriminate X. injection X as <-. right. reflexivity. Qed.
Lemma plain_ctitle : forall t, plain_title t -> render (u_ctitle t) = t.
Proof.
  intros t (H1 & H2 & _). rewrite <- (render_bare t) at 2. apply f_equal. rewrite <- (u_ctitle_chars t) at 2. apply bare_eq. intros [[] c] Hu; [|reflexivity]. exfalso.
  assert (Hc : In c t) by (rewrite <- (u_ctitle_chars t); apply in_map_iff; exists (true, c); split; [reflexivity|exact Hu]). apply u_ctitle_escd in Hu. destruct Hu as [->| ->]; contradiction.
Qed.
Lemma nested_tame : forall titles y, Forall plain_title titles -> tame_block true y -> (tame_block false y \/ titles <> []) -> ~ block_ends_nl y -> ~ block_starts_nl y ->
  tame_block false (nested titles y) /\ display_block (nested titles y) = nested_text titles (display_block y).
Proof.
  intros titles y F T Tf E1 E2.
  assert (X : forall r, Forall plain_title r -> tame_block true (nested r y) /\ ~ block_ends_nl (nested r y) /\ ~ block_starts_nl (nested r y) /\ display_block (nested r y) = nested_text r (display_block y)).
  { induction r as [|t r IH]; intros Fr; [repeat split; assumption|]. inversion Fr as [|? ? Ft Fr']; subst. destruct (IH Fr') as (I1 & I2 & I3 & I4).
    assert (Tt : tame_block true (nested (t :: r) y)).
    { cbn [nested tame_block]. destruct Ft as (_ & _ & A & B & C). split; [repeat split; assumption|]. cbn [map fold_right]. split; [split; [exact I1|exact I]|]. split; [constructor; [exact I2|constructor]|exact I3]. }
    split; [exact Tt|]. split; [exact (fun x => x)|]. split; [exact (fun x => x)|]. rewrite (u_block_render _ _ (tame_mild _ _ Tt)). cbn [nested u_block map ujoin]. rewrite !render_app, (plain_ctitle t Ft), app_nil_r.
    rewrite <- (u_block_render _ _ (tame_mild _ _ I1)), I4. reflexivity. }
  destruct (X titles F) as (X1 & _ & _ & X4). split; [|exact X4]. destruct titles as [|t r]; [destruct Tf as [Tf|Tf]; [exact Tf|congruence]|]. exact X1.
Qed.
Lemma nested_round_trip : forall titles y, Forall plain_title titles -> tame_block true y -> (tame_block false y \/ titles <> []) -> ~ block_ends_nl y -> ~ block_starts_nl y ->
  deserialize (nested_text titles (display_block y)) = Ok (mk_yamd None [nested titles y]).
Proof.
  intros titles y F T Tf E1 E2. destruct (nested_tame titles y F T Tf E1 E2) as [T1 T2]. rewrite <- T2. exact (block_round_trip _ T1).
Qed.
Lemma nested_depth : forall titles y, depth y = 0 -> depth (nested titles y) = List.length titles.
Proof. induction titles as [|t r IH]; intros y H; [exact H|]. cbn [nested depth map fold_right List.length]. rewrite IH by exact H. rewrite Nat.max_0_r. reflexivity. Qed.
Lemma nested_length : forall titles x, List.length (nested_text titles x) = List.length x + fold_right (fun t n => List.length t + n) 0 titles + 7 * List.length titles.
Proof.
  induction titles as [|t r IH]; intros x; [cbn; lia|]. cbn [nested_text fold_right List.length]. unfold nest_text. rewrite !app_length, IH. cbn. lia.
Qed.

(** ** Joined documents *)

Lemma join_app : forall sep a b, a <> [] -> b <> [] -> join sep (a ++ b) = (join sep a ++ sep ++ join sep b)%list.
Proof.
  intros sep a b Ha Hb. induction a as [|x a IH]; [congruence|]. destruct a as [|y a].
  - cbn [app]. destruct b as [|z b]; [congruence|]. reflexivity.
  - change (join sep ((x :: y :: a) ++ b)) with (x ++ sep ++ join sep ((y :: a) ++ b))%list. rewrite IH by discriminate. change (join sep (x :: y :: a)) with (x ++ sep ++ join sep (y :: a))%list. rewrite <- !app_assoc. reflexivity.
Qed.
Lemma closed_app : forall a b, closed_body a -> closed_body b -> match rev a with y :: _ => ~ block_ends_nl y | [] => True end -> closed_body (a ++ b).
Proof.
  intros a b Ha Hb He. induction a as [|y a IH]; [exact Hb|]. destruct a as [|z a].
  - cbn [app]. destruct b as [|w b]; [exact I|]. split; [exact He|exact Hb].
  - destruct Ha as [H1 H2]. change ((y :: z :: a) ++ b) with (y :: z :: (a ++ b)). split; [exact H1|]. apply IH; [exact H2|]. cbn [rev] in *. destruct (rev a ++ [z]) eqn:E; [destruct (rev a); discriminate|]. cbn [app] in He. exact He.
Qed.
Lemma join_round_trip : forall a b, tame_doc a -> tame_doc b -> metadata b = None -> body a <> [] -> body b <> [] ->
  match rev (body a) with y :: _ => ~ block_ends_nl y | [] => True end ->
  deserialize (display_yamd a ++ nlnl ++ display_yamd b) = Ok (mk_yamd (metadata a) (body a ++ body b)).
Proof.
  intros [ma ba] [mb bb] (Ma & Ta & Ca) (_ & Tb & Cb) Hm Na Nb He. cbn [metadata body] in *. subst mb.
  assert (T : tame_doc (mk_yamd ma (ba ++ bb))) by (split; [exact Ma|]; split; [apply Forall_app; split; assumption|apply closed_app; assumption]).
  rewrite <- (round_trip _ T). f_equal. unfold display_yamd. cbn [metadata body]. unfold display_body. rewrite map_app, join_app by (destruct ba; destruct bb; (congruence || discriminate)).
  destruct ma as [m|]; [|reflexivity]. rewrite <- !app_assoc. reflexivity.
Qed.
