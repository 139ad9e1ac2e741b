(** Everything the generators produce is tame, except for links in headings. *)
From Coq Require Import String.
From Verif Require Import Base Ops StreamSpec Ast Api AstSpec AstProofs Tame GenSpec TreeAst UBlocks UDocs Plain.
Open Scope list_scope.

(** ** Characters *)

Ltac small H := vm_compute in H; repeat match goal with H : _ \/ _ |- _ => destruct H end; try contradiction.

Lemma alnum_not : forall c d, alnum c -> ~ alnum d -> c <> d.
Proof. intros c d H N E. subst. contradiction. Qed.
Ltac not_alnum := match goal with H : alnum _ |- _ => exfalso; destruct H as [[H H']|[[H H']|[H H']]]; first [apply H; reflexivity | apply H'; reflexivity] end.
Lemma word_in : forall x c, word x -> In c x -> alnum c.
Proof. intros x c [_ F] H. rewrite Forall_forall in F. auto. Qed.

Definition no_in (c : char) (x : str) : Prop := ~ In c x.
Lemma joined_no : forall P c x, joined P x -> (forall p, P p -> ~ In c p) -> ~ In c x.
Proof.
  intros P c x (l & _ & F & ->) H I. apply in_concat in I. destruct I as (p & I1 & I2). rewrite Forall_forall in F. exact (H p (F p I1) I2).
Qed.
Lemma joined_ne : forall P x, joined P x -> (forall p, P p -> p <> []) -> x <> [].
Proof. intros P x (l & N & F & ->) H. destruct l as [|p l]; [congruence|]. inversion F; subst. cbn. specialize (H p ltac:(assumption)). destruct p; [congruence|discriminate]. Qed.

Lemma inline_piece_no : forall p c, inline_piece p -> In c [c_nl; c_cr; c_space] -> ~ In c p.
Proof.
  intros p c [H|H] Hc I.
  - cbn [In] in H. repeat (destruct H as [<-|H]); try contradiction; small I; subst; small Hc; discriminate.
  - pose proof (word_in _ _ H I) as A. cbn [In] in Hc. repeat (destruct Hc as [<-|Hc]); try contradiction; not_alnum.
Qed.

(** ** Texts *)

Lemma inline_facts : forall x, arb_inline_text x -> x <> [] /\ ~ In c_nl x /\ ~ In c_cr x /\ ~ In c_space x.
Proof.
  intros x [[H|H] _].
  - split; [apply H|]. repeat split; intros I; pose proof (word_in _ _ H I); not_alnum.
  - split.
    + apply (joined_ne _ _ H). intros p [I| [I _]]; [|exact I]. intros ->. cbn [In] in I. repeat (destruct I as [I|I]; [discriminate I|]). contradiction.
    + repeat split; apply (joined_no _ _ _ H); intros p I; apply (inline_piece_no p _ I); cbn; auto.
Qed.
Lemma url_char_no : forall c d, url_char c -> In d [c_nl; c_cr] -> c <> d.
Proof.
  intros c d [H|H] Hd ->; cbn [In] in Hd; repeat (destruct Hd as [<-|Hd]); try contradiction; try not_alnum; small H; discriminate.
Qed.
Lemma url_facts : forall x, arb_url x -> ~ In c_nl x /\ ~ In c_cr x.
Proof.
  intros x [[_ F]|H].
  - rewrite Forall_forall in F. split; intros I; apply (url_char_no _ _ (F _ I)) with (2 := eq_refl); cbn; auto.
  - assert (G : forall c, In c [c_nl; c_cr] -> ~ In c x).
    { intros c Hc. apply (joined_no _ _ _ H). intros p [I|[_ F]] Ic.
      - cbn [In] in I. repeat (destruct I as [<-|I]); try contradiction; small Ic; subst; small Hc; discriminate.
      - rewrite Forall_forall in F. exact (url_char_no _ _ (F _ Ic) Hc eq_refl). }
    split; apply G; cbn; auto.
Qed.

Lemma piece_facts : forall p, text_piece p -> p <> [] /\ ~ In c_cr p
  /\ forall a b, p = a ++ c_space :: b -> exists a0 w, a = a0 ++ c_nl :: w /\ In w [s_ "-"; s_ "+"; s_ "#"; s_ "!!"; s_ "{%"].
Proof.
  intros p [H|H].
  - split; [destruct H as [H|[H _]]; [intros ->; cbn [In] in H; repeat (destruct H as [H|H]; [discriminate H|]); contradiction|exact H]|].
    split; [apply (inline_piece_no p _ H); cbn; auto|]. intros a b ->. exfalso. apply (inline_piece_no _ c_space H); [cbn; auto|]. apply in_elt.
  - cbn [In app map] in H. repeat (destruct H as [<-|H]); try contradiction; (split; [discriminate|]; split; [intros I; small I; discriminate|]);
    intros a b E; repeat (destruct a as [|? a]; [try discriminate E; injection E; intros; subst | injection E as <- E || discriminate E]); try discriminate;
    try (exists []; eexists; split; [reflexivity|cbn; tauto]).
Qed.

Definition marked (x : str) : Prop :=
  forall a b, x = a ++ c_space :: b -> exists a0 w, a = a0 ++ c_nl :: w /\ In w [s_ "-"; s_ "+"; s_ "#"; s_ "!!"; s_ "{%"].
Lemma app_cons_split : forall (p q a b : str) c, p ++ q = a ++ c :: b -> (exists r, p = a ++ c :: r) \/ (exists a', a = p ++ a' /\ q = a' ++ c :: b).
Proof.
  induction p as [|d p IH]; intros q a b c E; [right; exists a; auto|]. destruct a as [|e a]; cbn in E.
  - injection E as -> _. left. exists p. reflexivity.
  - injection E as -> E. destruct (IH _ _ _ _ E) as [(r & ->)|(a' & -> & ->)]; [left; exists r|right; exists a']; auto.
Qed.
Lemma joined_marked : forall x, joined text_piece x -> marked x.
Proof.
  intros x (l & _ & F & ->). induction F as [|p l P F IH]; intros a b E; [destruct a; discriminate|]. cbn [concat] in E.
  destruct (app_cons_split _ _ _ _ _ E) as [(r & E')|(a' & -> & E')].
  - apply (proj2 (proj2 (piece_facts p P)) _ _ E').
  - destruct (IH _ _ E') as (a0 & w & -> & H). exists (p ++ a0), w. rewrite <- app_assoc. auto.
Qed.
Lemma text_facts : forall x, arb_text x -> x <> [] /\ ~ In c_cr x /\ (Forall (fun c => alnum c \/ c = c_space) x \/ marked x).
Proof.
  intros x [[N F]|H].
  - split; [exact N|]. split; [|left; exact F]. rewrite Forall_forall in F. intros I. destruct (F _ I) as [A|A]; [not_alnum|discriminate].
  - split; [apply (joined_ne _ _ H); intros p P; apply (piece_facts p P)|]. split; [apply (joined_no _ _ _ H); intros p P; apply (piece_facts p P)|].
    right. apply joined_marked. exact H.
Qed.

Lemma leading_split : forall c x, x = repeat c (leading c x) ++ skipn (leading c x) x.
Proof. intros c x. induction x as [|d x IH]; [reflexivity|]. cbn [leading]. destruct (char_eqb d c) eqn:E; [|reflexivity]. apply N.eqb_eq in E. subst d. cbn. f_equal. exact IH. Qed.
Lemma text_not_heading : forall x, arb_text x -> ~ like_heading x.
Proof.
  intros x H [L1 L2]. destruct (text_facts x H) as (_ & _ & [F|M]).
  - destruct x as [|c x]; [cbn in L1; lia|]. inversion F as [|? ? A _]; subst. cbn [leading] in L1. destruct (char_eqb c c_hash) eqn:E; [|lia].
    apply N.eqb_eq in E. subst c. destruct A as [A|A]; [not_alnum|discriminate].
  - pose proof (leading_split c_hash x) as E. set (k := leading c_hash x) in *. destruct (skipn k x) as [|c r]; [cbn in L2; lia|].
    cbn [leading] in L2. destruct (char_eqb c c_space) eqn:Ec; [|lia]. apply N.eqb_eq in Ec. subst c.
    destruct (M _ _ E) as (a0 & w & Ea & _). assert (I : In c_nl (repeat c_hash k)) by (rewrite Ea; apply in_elt). apply repeat_spec in I. discriminate.
Qed.
Lemma text_not_icon : forall x, arb_text x -> ~ begins [c_bang; c_space] x.
Proof.
  intros x H (b & E). cbn in E. destruct (text_facts x H) as (_ & _ & [F|M]).
  - subst x. inversion F as [|? ? A _]; subst. destruct A as [A|A]; [not_alnum|discriminate].
  - destruct (M [c_bang] b E) as (a0 & w & Ea & _). destruct a0 as [|? [|? ?]]; discriminate.
Qed.
Lemma text_no_marker : forall x c, arb_text x -> ~ has (c_nl :: c_space :: c) x.
Proof.
  intros x c H (a & b & E). destruct (text_facts x H) as (_ & _ & [F|M]).
  - rewrite Forall_forall in F. assert (I : In c_nl x) by (rewrite E; apply in_elt). destruct (F _ I) as [A|A]; [not_alnum|discriminate].
  - destruct (M (a ++ [c_nl]) (c ++ b)) as (a0 & w & Ea & Iw); [rewrite E, <- app_assoc; reflexivity|].
    destruct (exists_last (l := w)) as (w' & d & ->); [intros ->; cbn in Iw; repeat (destruct Iw as [Iw|Iw]; [discriminate Iw|]); contradiction|].
    rewrite app_comm_cons, app_assoc in Ea. apply app_inj_tail in Ea. destruct Ea as [_ <-].
    cbn [In] in Iw. repeat (destruct Iw as [Iw|Iw]; [destruct w' as [|? [|? [|? ?]]]; discriminate Iw|]). contradiction.
Qed.

(** ** Nodes *)

Lemma even_runs_none : forall x, ~ In c_nl x -> even_runs x.
Proof.
  intros x H a b -> _. right. exists 0. destruct b as [|c b]; [reflexivity|]. cbn [leading]. destruct (char_eqb c c_nl) eqn:E; [|reflexivity].
  apply LexProofs.char_eqb_eq in E. subst c. exfalso. apply H. apply in_elt.
Qed.
Lemma one_line : forall coll x, ~ In c_nl x -> ~ In c_cr x -> inner_text coll x.
Proof. intros coll x H1 H2. split; [exact H2|]. split; [apply even_runs_none; exact H1|]. intros _ (a & b & ->). apply H1. apply in_elt. Qed.
Lemma inline_inner : forall coll x, arb_inline_text x -> inner_text coll x.
Proof. intros coll x H. apply one_line; apply (inline_facts x H). Qed.
Lemma url_inner : forall coll x, arb_url x -> inner_text coll x.
Proof. intros coll x H. apply one_line; apply (url_facts x H). Qed.
Lemma not_begins : forall x, ~ In c_space x -> ~ begins [c_space] x.
Proof. intros x H (b & ->). apply H. left. reflexivity. Qed.
Lemma inline_line : forall x, arb_inline_text x -> tame_line x.
Proof. intros x H. destruct (inline_facts x H) as (_ & H1 & H2 & H3). split; [exact H1|]. split; [exact H2|]. apply not_begins. exact H3. Qed.
Lemma inline_not_heading : forall x, ~ In c_space x -> ~ like_heading x.
Proof.
  intros x H [_ L]. apply H. rewrite (leading_split c_hash x). apply in_or_app. right. destruct (skipn (leading c_hash x) x) as [|c r]; [cbn in L; lia|].
  cbn [leading] in L. destruct (char_eqb c c_space) eqn:E; [|lia]. apply N.eqb_eq in E. left. exact E.
Qed.

Lemma leading_start : forall x n, leading c_nl x = S n -> starts_with_nl x.
Proof. intros [|d x] n E; [discriminate|]. cbn [leading] in E. destruct (char_eqb d c_nl) eqn:D; [|discriminate]. apply N.eqb_eq in D. subst d. exists x. reflexivity. Qed.
Lemma leading_not_1 : forall x, ~ starts_with_nl x -> leading c_nl x <> 1.
Proof. intros x H E. apply H. exact (leading_start x 0 E). Qed.
Lemma leading_not_odd : forall x, ~ ends_with_nl x -> ~ Nat.Odd (leading c_nl (rev x)).
Proof.
  intros x H [m E]. rewrite Nat.add_1_r in E. destruct (leading_start _ _ E) as (y & R). apply H. exists (rev y). rewrite <- (rev_involutive x), R. reflexivity.
Qed.
Lemma gen_single : forall coll n, tame_inline coll n -> tame_inlines coll [n].
Proof. intros coll n H. split; [repeat constructor; exact H|]. split; exact I. Qed.
Lemma gen_node : forall coll n, arb_paragraph_node n -> tame_inline coll n /\ ~ block_starts_nl (YParagraph [n]) /\ ~ block_ends_nl (YParagraph [n]) /\ plain_first [n].
Proof.
  intros coll n H. destruct H as [x H|x H|x H|x H|x H|t u H U|x [N W]];
    try (destruct (inline_facts _ H) as (F1 & F2 & F3 & F4)); cbn [tame_inline block_starts_nl block_ends_nl first_text last_text rev app leading];
    (split; [|split; [|split]]); auto using inline_inner, url_inner; try (intros [m E]; lia);
    try (split; [intros [L _]; cbn in L; lia|exact (fun f => f)]).
  - apply leading_not_1. intros (y & ->). apply F2. left. reflexivity.
  - apply leading_not_odd. intros (y & ->). apply F2. apply in_elt.
  - split; [apply inline_not_heading; exact F4|]. exact (fun f => f).
  - split; [discriminate|]. split; [|split; exact I]. constructor; [|constructor]. split; [exact N|]. rewrite Forall_forall in W. apply one_line; intros In0; pose proof (W _ In0); not_alnum.
Qed.
Lemma gen_text_inlines : forall coll x, arb_text x -> tame_inlines coll [PText x].
Proof. intros coll x H. destruct (text_facts x H) as (H1 & H2 & _). apply gen_single. split; assumption. Qed.
Lemma gen_image_tame : forall coll i, arb_image i -> tame_image coll i.
Proof. intros coll i [H1 H2]. split; [apply inline_inner; exact H1|apply url_inner; exact H2]. Qed.
Lemma gen_code_tame : forall lang code, arb_inline_text lang -> arb_block_text code -> code_new lang code = YCode lang code /\ tame_code lang code.
Proof.
  intros lang code H1 (H2 & _ & H3 & H4). destruct (inline_facts _ H1) as (_ & _ & F & _). destruct (text_facts _ H2) as (_ & G & _).
  split; [unfold code_new; rewrite trim_end_keep by exact H3; reflexivity|]. repeat split; assumption.
Qed.
Lemma gen_embed_tame : forall coll kind args, arb_inline_text kind -> arb_block_text args -> tame_embed coll kind args.
Proof.
  intros coll kind args H1 (H2 & _). destruct (inline_facts _ H1) as (_ & F1 & F2 & _). destruct (text_facts _ H2) as (_ & G & _).
  split; [exact F2|]. split; [exact G|]. intros _ (a & b & ->). apply F1. apply in_elt.
Qed.
Lemma gen_paragraph_tame : forall coll x, arb_block_text x -> tame_paragraph coll [PText x] /\ ~ block_starts_nl (YParagraph [PText x]) /\ ~ block_ends_nl (YParagraph [PText x]).
Proof.
  intros coll x (H & _ & H1 & H2). split; [|split; [apply leading_not_1|apply leading_not_odd]; assumption]. split; [discriminate|]. split; [apply gen_text_inlines; exact H|].
  split; [apply text_not_heading; exact H|exact (fun f => f)].
Qed.
Lemma gen_highlight_tame : forall coll title icon x, match title with Some t => arb_inline_text t | None => True end -> match icon with Some t => arb_inline_text t | None => True end ->
  arb_block_text x -> tame_highlight coll title icon [[PText x]].
Proof.
  intros coll title icon x H1 H2 (H & _ & H3 & H4). split; [destruct title; [apply inline_line; exact H1|exact I]|]. split; [destruct icon; [apply inline_line; exact H2|exact I]|].
  split; [|split; [constructor|]].
  - split; [discriminate|]. split; [apply gen_text_inlines; exact H|exact H3].
  - split; [apply leading_not_1; exact H4|]. intros _ [B _]. revert B. apply text_not_icon. exact H.
Qed.
Lemma gen_item_tame : forall coll ty x, arb_list_item_text x -> tame_item coll 0 [] ty (YItem [PText x] None).
Proof.
  intros coll ty x [(H & _ & H1 & H2) H3]. constructor; [|discriminate]. split; [apply gen_text_inlines; exact H|]. split; [exact H3|]. split; [exact H1|].
  intros p y j c [<-|[]] [<-|[]] L Hc E1 E2. destruct j as [|j]; [exfalso; apply (E2 eq_refl); left; symmetry; apply E1; reflexivity|].
  intros (a & b & E & _). cbn [repeat app] in E. apply (text_no_marker x [] H). exists a, (repeat c_space j ++ c :: c_space :: b). exact E.
Qed.
Lemma gen_block_tame : forall coll (heads : str -> Prop) y, (forall x, heads x -> ~ opens_link x []) -> arb_yamd_node heads y ->
  tame_block coll y /\ ~ block_starts_nl y /\ ~ block_ends_nl y.
Proof.
  intros coll heads y Hh H. destruct H as [n H|level x L H Hx|i H|l L H|lang code H1 H2| |kind args H1 H2].
  - destruct (gen_node coll n H) as (T & S1 & S2 & P). split; [|split; assumption]. cbn [tame_block]. split; [discriminate|]. split; [apply gen_single; exact T|exact P].
  - destruct (inline_facts _ H) as (F1 & F2 & F3 & F4). cbn [tame_block block_starts_nl block_ends_nl last_head rev app]. split; [|split; [tauto|intros (z & ->); apply F2, in_elt]].
    split; [exact L|]. split; [|split; [exact I|split; [exact (conj (Hh x Hx) I)|apply not_begins; exact F4]]]. constructor; [|constructor]. split; [exact F1|apply inline_inner; exact H].
  - split; [apply gen_image_tame; exact H|]. split; exact (fun x => x).
  - split; [split; [exact L|revert H; apply Forall_impl; apply gen_image_tame]|]. split; exact (fun x => x).
  - destruct (gen_code_tame _ _ H1 H2) as [-> T]. split; [exact T|]. split; exact (fun x => x).
  - split; [exact I|]. split; exact (fun x => x).
  - split; [apply gen_embed_tame; assumption|]. split; exact (fun x => x).
Qed.
Lemma gen_closed : forall (coll : bool) (heads : str -> Prop) b, (forall x, heads x -> ~ opens_link x []) -> Forall (arb_yamd_node heads) b -> closed_body b.
Proof.
  intros coll heads b Hh F. induction F as [|y b H F IH]; [exact I|]. cbn. destruct b; [exact I|]. split; [|exact IH]. apply (gen_block_tame coll heads y Hh H).
Qed.
Lemma gen_collapsible_tame : forall title b, arb_inline_text title -> Forall (fun y => tame_block true y /\ ~ block_starts_nl y /\ ~ block_ends_nl y) b ->
  tame_block false (YCollapsible title b).
Proof.
  intros title b H F. cbn [tame_block]. split; [apply inline_line; exact H|]. split.
  - induction F as [|y b Hy F IH]; [exact I|]. cbn. split; [apply Hy|exact IH].
  - split; [revert F; apply Forall_impl; tauto|]. destruct F as [|y b Hy F]; [exact I|]. tauto.
Qed.
Lemma gen_meta_tame : forall m, Forall (fun c => alnum c \/ In c (s_ ": ")) m -> tame_meta m.
Proof.
  intros m F. rewrite Forall_forall in F.
  assert (G : forall c, In c m -> In c [c_bslash; c_cr; c_nl; c_minus] -> False).
  { intros c I J. destruct (F c I) as [A|A].
    - cbn [In] in J. repeat (destruct J as [<-|J]); try contradiction; not_alnum.
    - small A; subst; small J; discriminate. }
  split; [intros I; apply (G _ I); cbn; auto|]. split; [intros I; apply (G _ I); cbn; auto|].
  split; [intros (y & ->); apply (G c_nl); [left; reflexivity|cbn; auto]|]. split; [intros (y & ->); apply (G c_nl); [apply in_elt|cbn; auto]|].
  intros a b E. destruct a as [|c a]; cbn in E; [injection E as <-|injection E as _ E2; exfalso; apply (G c_nl); [rewrite E2; apply in_elt|cbn; auto]].
  destruct m as [|c m]; [discriminate|]. cbn [leading]. destruct (char_eqb c c_minus) eqn:Ec; [|discriminate]. apply N.eqb_eq in Ec. exfalso. apply (G c); [left; reflexivity|subst; cbn; auto].
Qed.
Lemma trim_both_keep : forall m, ~ starts_with_nl m -> ~ ends_with_nl m -> trim_both c_nl m = m.
Proof.
  intros m H1 H2. unfold trim_both. replace (trim_start c_nl m) with m; [apply trim_end_keep; exact H2|]. destruct m as [|c m]; [reflexivity|]. cbn [trim_start].
  destruct (char_eqb c_nl c) eqn:E; [|reflexivity]. apply N.eqb_eq in E. subst c. exfalso. apply H1. exists m. reflexivity.
Qed.
Lemma gen_doc_tame : forall (heads : str -> Prop) y, (forall x, heads x -> ~ opens_link x []) -> arb_yamd heads y -> tame_doc y.
Proof.
  intros heads y Hh H. destruct H as [m b Hm _ F]. split; [|split].
  - destruct m as [m|]; [|exact I]. cbn. destruct (gen_meta_tame m (proj1 Hm)) as (T1 & T2 & T3 & T4 & T5). rewrite trim_both_keep by assumption. repeat split; assumption.
  - cbn. revert F. apply Forall_impl. intros y H. apply (gen_block_tame false heads y Hh H).
  - exact (gen_closed false heads b Hh F).
Qed.

(** ** The tests *)

Definition back (y : yamd) : Prop := deserialize (display_yamd y) = Ok y.
Lemma gen_inline_reads : forall n, arb_paragraph_node n -> back (yamd_new None [YParagraph [n]]).
Proof.
  intros n H. destruct (gen_node false n H) as (T & _ & _ & P). apply (block_round_trip (YParagraph [n])). split; [discriminate|]. split; [apply gen_single; exact T|exact P].
Qed.
Lemma gen_bold_reads : forall x, arb_inline_text x -> back (yamd_new None [YParagraph [PBold [BText x]]]).
Proof.
  intros x H. apply (block_round_trip (YParagraph [PBold [BText x]])). split; [discriminate|]. split; [|split; [intros [L _]; cbn in L; lia|exact (fun f => f)]]. apply gen_single. split; [discriminate|]. split; [|split; exact I].
  constructor; [|constructor]. split; [apply inline_facts; exact H|apply inline_inner; exact H].
Qed.
Lemma gen_code_reads : forall lang code, arb_inline_text lang -> arb_block_text code -> back (yamd_new None [code_new lang code]).
Proof. intros lang code H1 H2. destruct (gen_code_tame lang code H1 H2) as [-> T]. exact (block_round_trip (YCode lang code) T). Qed.
Lemma gen_list_reads : forall ty x y, arb_list_item_text x -> arb_list_item_text y ->
  back (yamd_new None [YListNode (YList ty 0 [YItem [PText x] None; YItem [PText y] None])]).
Proof.
  intros ty x y Hx Hy. apply (block_round_trip (YListNode _)). constructor; [discriminate|]. repeat (constructor; [apply gen_item_tame; assumption|]). constructor.
Qed.
Lemma gen_collapsible_reads : forall title x, arb_inline_text title -> arb_block_text x -> back (yamd_new None [YCollapsible title [YParagraph [PText x]]]).
Proof.
  intros title x H1 H2. apply (block_round_trip (YCollapsible title _)). apply gen_collapsible_tame; [exact H1|]. constructor; [|constructor]. exact (gen_paragraph_tame true x H2).
Qed.
Lemma gen_block_reads : forall (heads : str -> Prop) y, (forall x, heads x -> ~ opens_link x []) -> arb_yamd_node heads y -> back (yamd_new None [y]).
Proof. intros heads y Hh H. apply (block_round_trip y). apply (gen_block_tame false heads y Hh H). Qed.
Lemma gen_mixed_reads : forall (heads : str -> Prop) title b, (forall x, heads x -> ~ opens_link x []) -> arb_inline_text title -> Forall (arb_yamd_node heads) b ->
  back (yamd_new None [YCollapsible title b]).
Proof.
  intros heads title b Hh H F. apply (block_round_trip (YCollapsible title b)). apply gen_collapsible_tame; [exact H|]. revert F. apply Forall_impl. intros y Hy. exact (gen_block_tame true heads y Hh Hy).
Qed.
Lemma t_generated : arb_inline_text (s_ "t").
Proof.
  split; [left; split; [discriminate|]; constructor; [left; vm_compute; split; discriminate|constructor]|]. split; [intros H; inversion H as [|? ? [X|X]]; discriminate X|]. intros (r & E). discriminate E.
Qed.
Lemma empty_link_generated : arb_inline_text (s_ "[]()").
Proof.
  split; [right; exists [s_ "["; s_ "]"; s_ "("; s_ ")"]; split; [discriminate|]; split; [|reflexivity]|].
  - repeat constructor; left; cbn [In]; tauto.
  - split; [intros H; inversion H as [|? ? [X|X]]; discriminate X|]. intros (r & E). discriminate E.
Qed.
