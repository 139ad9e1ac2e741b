(** The op stream of [parse] follows the document type of StreamSpec.v. *)
From Coq Require Import String.
From Verif Require Import Base Lexer LexSpec LexProofs LexFacts Ops Parser FParser Refine Refine2 Refine3
  Wf TokFacts StreamSpec.

(** ** Events of trees *)

Fixpoint tevents (s : str) (t : tree) : list event :=
  match t with
  | Leaf ts => [(Value, ttexts s ts)]
  | Skip _ => []
  | Node n o k c => (Start n, ttexts s o) :: flat_map (tevents s) k ++ [(End n, ttexts s c)]
  end.
Definition tevents_all (s : str) (k : list tree) : list event := flat_map (tevents s) k.

Definition tlabel (s : str) (t : tree) : list label :=
  match t with
  | Leaf ts => [LText (ttexts s ts)]
  | Skip _ => []
  | Node n o _ _ => [LNode n (ttexts s o)]
  end.
Definition tlabels (s : str) (k : list tree) : list label := flat_map (tlabel s) k.

(** Induction over trees and their children. *)
Lemma tree_ind' : forall P : tree -> Prop,
  (forall ts, P (Leaf ts)) -> (forall ts, P (Skip ts)) ->
  (forall n o k c, Forall P k -> P (Node n o k c)) -> forall t, P t.
Proof.
  intros P HL HS HN. fix F 1. intros [ts|ts|n o k c]; [apply HL|apply HS|]. apply HN.
  induction k as [|x k IH]; constructor; [apply F|exact IH].
Qed.

Lemma linked_nil : forall s, linked s []. Proof. intros; split; [constructor|exact I]. Qed.

Lemma Forall2_app' : forall A B (R : A -> B -> Prop) a b c d, Forall2 R a b -> Forall2 R c d -> Forall2 R (a ++ c) (b ++ d).
Proof. intros. apply Forall2_app; assumption. Qed.

Lemma flatten_reads : forall s t, linked s (yield t) -> reads s (flatten s t) (tevents s t).
Proof.
  intros s. induction t as [ts|ts|n o k c IH] using tree_ind'; intros L.
  - constructor; [|constructor]. split; [reflexivity|]. apply content_text. exact L.
  - constructor.
  - cbn [yield] in L. apply linked_app in L. destruct L as [Lo L]. apply linked_app in L. destruct L as [Lk Lc].
    cbn [flatten tevents]. constructor.
    { split; [reflexivity|]. apply content_text. exact Lo. }
    apply Forall2_app'.
    + clear - IH Lk. induction k as [|x k IHk]; [constructor|]. cbn [flat_map] in *.
      inversion IH; subst. apply linked_app in Lk. destruct Lk. apply Forall2_app'; [match goal with H : linked s (yield x) -> _ |- _ => apply H; assumption end|]. apply IHk; assumption.
    + constructor; [|constructor]. split; [reflexivity|]. apply content_text. exact Lc.
Qed.

Lemma flattens_reads : forall s k, linked s (yields k) -> reads s (flattens s k) (tevents_all s k).
Proof.
  intros s k. induction k as [|t k IH]; intros L; [constructor|]. cbn in *. apply linked_app in L. destruct L.
  apply Forall2_app'; [apply flatten_reads; assumption|apply IH; assumption].
Qed.

(** ** Texts of delimiters *)

Lemma one_ttext : forall s f ts x, (forall t, tok_ok s t -> f t = true -> ttext s t = x) ->
  linked s ts -> one f ts -> ttexts s ts = x.
Proof.
  intros s f ts x H [F _] (t & -> & E). inversion F; subst. cbn. rewrite app_nil_r. auto.
Qed.
Lemma two_ttext : forall s f g ts x y, (forall t, tok_ok s t -> f t = true -> ttext s t = x) ->
  (forall t, tok_ok s t -> g t = true -> ttext s t = y) ->
  linked s ts -> two f g ts -> ttexts s ts = x ++ y.
Proof.
  intros s f g ts x y H1 H2 [F _] (t & u & -> & E1 & E2). inversion F as [|? ? F1 F']; subst. inversion F'; subst.
  cbn. rewrite app_nil_r. rewrite (H1 t), (H2 u); auto.
Qed.

Ltac run_tac c :=
  let t := fresh "t" in let H := fresh "H" in let E := fresh "E" in
  intros t H E; pred_text E;
  rewrite (run_text_at _ _ _ c H E eq_refl);
  repeat match goal with L : (tlen _ =? _) = true |- _ => apply Nat.eqb_eq in L; rewrite L end; reflexivity.
Ltac single_tac :=
  let t := fresh "t" in let H := fresh "H" in let E := fresh "E" in
  intros t H E; pred_text E; exact (single_text _ _ _ H E).

Section Texts.
  Context (s : str).
  Definition has (f : token -> bool) (x : str) := forall t, tok_ok s t -> f t = true -> ttext s t = x.
  Lemma x_three_dashes : has is_three_dashes (s_ "---"). Proof. run_tac c_minus. Qed.
  Lemma x_left_bracket : has is_left_bracket (s_ "["). Proof. single_tac. Qed.
  Lemma x_right_bracket : has is_right_bracket (s_ "]"). Proof. single_tac. Qed.
  Lemma x_left_paren : has is_left_paren (s_ "("). Proof. single_tac. Qed.
  Lemma x_right_paren : has is_right_paren (s_ ")").
  Proof. intros t H E. apply kind_eqb_eq in E. exact (single_text _ _ _ H E). Qed.
  Lemma x_underscore : has is_underscore (s_ "_"). Proof. single_tac. Qed.
  Lemma x_pipe : has is_pipe (s_ "|"). Proof. single_tac. Qed.
  Lemma x_tilde : has is_tilde (s_ "~~"). Proof. run_tac c_tilde. Qed.
  Lemma x_star : has is_star (s_ "*"). Proof. run_tac c_star. Qed.
  Lemma x_star2 : has is_star2 (s_ "**"). Proof. run_tac c_star. Qed.
  Lemma x_backtick : has is_backtick (s_ "`"). Proof. run_tac c_backtick. Qed.
  Lemma x_backtick3 : has is_backtick3 (s_ "```"). Proof. run_tac c_backtick. Qed.
  Lemma x_bang : has is_bang (s_ "!"). Proof. run_tac c_bang. Qed.
  Lemma x_one_bang : has is_one_bang (s_ "!"). Proof. run_tac c_bang. Qed.
  Lemma x_two_bangs : has is_two_bangs (s_ "!!"). Proof. run_tac c_bang. Qed.
  Lemma x_dash5 : has is_dash5 (s_ "-----"). Proof. run_tac c_minus. Qed.
  Lemma x_space_1 : has is_space_1 (s_ " "). Proof. run_tac c_space. Qed.
  Lemma x_indent : forall l, has (is_indent l) (repeat c_space l). Proof. intros l. run_tac c_space. Qed.
  Lemma x_left_curly2 : has is_left_curly2 (s_ "{{"). Proof. run_tac c_lcurly. Qed.
  Lemma x_right_curly2 : has is_right_curly2 (s_ "}}"). Proof. run_tac c_rcurly. Qed.
  Lemma x_collapsible_start : has is_collapsible_start (s_ "{%"). Proof. single_tac. Qed.
  Lemma x_collapsible_end : has is_collapsible_end (s_ "%}"). Proof. single_tac. Qed.
  Lemma x_eol : forall t, tok_ok s t -> is_eol t = true -> newline (ttext s t).
  Proof. intros t H E. apply kind_eqb_eq in E. exact (single_text _ _ _ H E). Qed.
  Lemma x_terminator : forall t, tok_ok s t -> is_terminator t = true -> blank_line (ttext s t).
  Proof. intros t H E. apply kind_eqb_eq in E. exact (single_text _ _ _ H E). Qed.
  Lemma tok_nonempty : forall t, tok_ok s t -> ttext s t <> [].
  Proof. intros t (x & H & NE & _). unfold ttext. rewrite H. exact NE. Qed.
  Lemma tlen_pos : forall t, tok_ok s t -> 1 <= tlen t.
  Proof.
    intros t H. rewrite <- (tok_len s t H). pose proof (tok_nonempty t H) as NE. destruct (ttext s t) as [|c x]; [congruence|].
    simpl. pose proof (utf8_len_pos c). lia.
  Qed.
  Lemma x_hash : forall t, tok_ok s t -> is_hash t = true -> exists l, 1 <= l <= 6 /\ ttext s t = repeat c_hash l.
  Proof.
    intros t H E. pred_text E. exists (tlen t). split; [|exact (run_text_at _ _ _ c_hash H E eq_refl)].
    match goal with X : (_ <=? _) = true |- _ => apply Nat.leb_le in X end. pose proof (tlen_pos t H). lia.
  Qed.
  Lemma x_space_or_eol : forall t, tok_ok s t -> is_space_or_eol t = true ->
    newline (ttext s t) \/ exists l, ttext s t = repeat c_space (S l).
  Proof.
    intros t H E. unfold is_space_or_eol in E. apply orb_true_iff in E. destruct E as [E|E].
    - apply kind_eqb_eq in E. right. rewrite (run_text_at _ _ _ c_space H E eq_refl). pose proof (tlen_pos t H).
      exists (tlen t - 1). f_equal. lia.
    - left. apply x_eol; assumption.
  Qed.
  Lemma x_eol_or_terminator : forall t, tok_ok s t -> is_eol_or_terminator t = true ->
    newline (ttext s t) \/ blank_line (ttext s t).
  Proof.
    intros t H E. unfold is_eol_or_terminator in E. apply orb_true_iff in E. destruct E as [E|E].
    - left. apply x_eol; assumption.
    - right. apply x_terminator; assumption.
  Qed.
End Texts.

Lemma one_eol_ttext : forall s f ts x, has s f x -> linked s ts -> one_eol f ts -> opt_newline x (ttexts s ts).
Proof.
  intros s f ts x H [F _] (t & E & [->|(e & -> & Ee)]); inversion F as [|? ? F1 F']; subst; cbn; rewrite app_nil_r.
  - left. auto.
  - inversion F'; subst. right. exists (ttext s e). split; [apply x_eol; assumption|]. rewrite (H t); auto.
Qed.

Lemma ttexts_nonempty : forall s ts, linked s ts -> ts <> [] -> ttexts s ts <> [].
Proof.
  intros s [|t ts] [F _] NE; [congruence|]. inversion F; subst. cbn. pose proof (tok_nonempty s t).
  destruct (ttext s t); [intros X; apply H; auto|discriminate].
Qed.

(** ** Levels *)

Definition at_level (lvl : nat) (t : tree) : Prop :=
  match t with
  | Node NUnorderedList _ _ _ | Node NOrderedList _ _ _ => list_at lvl t
  | Node NListItem o _ _ => exists lk, marker lvl lk o
  | _ => True
  end.

Lemma marker_level : forall l l' k k' o, marker l k o -> marker l' k' o -> l = l'.
Proof.
  intros l l' k k' o (_ & m & x & _ & _ & H) (_ & m' & x' & _ & _ & H').
  destruct l, l'; try reflexivity.
  - destruct H' as (i & H' & _). congruence.
  - destruct H as (i & H & _). congruence.
  - destruct H as (i & -> & E), H' as (i' & H' & E'). injection H' as <- <- <-.
    unfold is_indent in *. apply andb_true_iff in E. apply andb_true_iff in E'. destruct E as [_ E], E' as [_ E'].
    apply Nat.eqb_eq in E. apply Nat.eqb_eq in E'. lia.
Qed.

Lemma root_level : forall lvl n t, root n t ->
  match n with NUnorderedList | NOrderedList | NListItem => False | _ => True end -> at_level lvl t.
Proof. intros lvl n t (o & k & c & ->) H. destruct n; try exact I; contradiction. Qed.

Lemma items_level : forall P lvl k, items P k ->
  (forall n, P n = true -> match n with NUnorderedList | NOrderedList | NListItem => False | _ => True end) ->
  Forall (at_level lvl) k.
Proof.
  intros P lvl k. induction k as [|[ts|ts|n o kk c] k IH]; intros H HP; [constructor| | |]; cbn in H.
  - constructor; [exact I|]. apply IH; [apply H|exact HP].
  - contradiction.
  - destruct H as [H1 H2]. constructor; [|apply IH; [exact H2|exact HP]].
    apply root_level with (n := n); [apply root_node|exact (HP n H1)].
Qed.

Lemma list_at_level : forall lvl t, list_at lvl t -> at_level lvl t.
Proof. intros lvl t H. pose proof H as (lk & k & -> & _). destruct lk; exact H. Qed.

Lemma item_at_level : forall lvl lk k, Forall (item_at lvl lk) k -> Forall (at_level lvl) k.
Proof.
  intros lvl lk k H. eapply Forall_impl; [|exact H]. intros t (o & kk & -> & M). exists lk. exact M.
Qed.

Lemma hl_body_level : forall lvl k, hl_body k -> Forall (at_level lvl) k.
Proof.
  induction 1; [constructor| |]; repeat constructor; auto; eapply root_level; eauto; exact I.
Qed.

Lemma opt_root_level : forall lvl n k, opt_root n k ->
  match n with NUnorderedList | NOrderedList | NListItem => False | _ => True end -> Forall (at_level lvl) k.
Proof. intros lvl n k [->|(t & -> & R)] H; constructor; [eapply root_level; eauto|constructor]. Qed.

Lemma kids_level : forall lvl n o k c, shape n o k c -> at_level lvl (Node n o k c) ->
  Forall (at_level (child_level lvl n)) k.
Proof.
  intros lvl n o k c H L.
  destruct n; cbn [shape] in H; cbn [child_level];
  try (destruct H as (_ & (b & ->) & _); repeat constructor; fail).
  - destruct H as (_ & _ & t & d & -> & R1 & R2). repeat constructor; eapply root_level; eauto; exact I.
  - destruct H as (_ & H & _). eapply items_level; [exact H|]. intros [] E; try discriminate; exact I.
  - destruct H as (_ & k1 & b & -> & H). apply Forall_app. split; [|repeat constructor].
    destruct H as [[_ H]|[_ ->]]; [eapply opt_root_level; eauto; exact I|constructor].
  - destruct H as (_ & _ & k1 & k2 & k3 & -> & H1 & H3). apply Forall_app. split; [eapply opt_root_level; eauto; exact I|].
    constructor; [exact I|]. destruct H3 as [->|(e & -> & _)]; repeat constructor.
  - destruct H as (_ & _ & H). eapply Forall_impl; [|exact H]. intros [ts|ts|n o' k' c'] B; try exact I.
    destruct B as [B|B]; [|apply list_at_level; exact B]. apply root_level with (n := n); [apply root_node|].
    destruct n; try discriminate; exact I.
  - destruct H as (_ & _ & a & b & c' & -> & _). repeat constructor.
  - destruct H as (_ & _ & H & _). eapply items_level; [exact H|]. intros [] E; try discriminate; exact I.
  - destruct H as (_ & k1 & k2 & k3 & -> & H2 & H3 & H). apply Forall_app. split.
    { destruct H as [[_ H]|[_ ->]]; [eapply opt_root_level; eauto; exact I|constructor]. }
    apply Forall_app. split; [eapply opt_root_level; eauto; exact I|apply hl_body_level; exact H3].
  - destruct H as (_ & _ & _ & t & d & -> & R1 & R2). repeat constructor; eapply root_level; eauto; exact I.
  - destruct H as (_ & _ & _ & H). eapply Forall_impl; [|exact H]. intros t R. eapply root_level; eauto; exact I.
  - destruct H as (_ & l & lk & p & M & R & H). destruct L as [lk' M'].
    rewrite (marker_level _ _ _ _ _ M M') in H.
    assert (at_level (S lvl) p) by (eapply root_level; eauto; exact I).
    destruct H as [->|(x & -> & Lx)]; repeat constructor; auto. apply list_at_level. exact Lx.
  - clear H. destruct L as (lk & k' & E & _ & H). assert (k' = k) by congruence; subst k'. eapply item_at_level; eauto.
  - destruct H as (_ & _ & H & _). eapply items_level; [exact H|]. intros [] E; try discriminate; exact I.
  - destruct H as (_ & _ & t & -> & _). repeat constructor.
  - clear H. destruct L as (lk & k' & E & _ & H). assert (k' = k) by congruence; subst k'. eapply item_at_level; eauto.
Qed.

(** ** The document type *)

Lemma tlabels_app : forall s a b, tlabels s (a ++ b) = tlabels s a ++ tlabels s b.
Proof. intros. apply flat_map_app. Qed.

Lemma tlabel_root : forall s n t, root n t -> exists o, tlabel s t = [LNode n o].
Proof. intros s n t (o & k & c & ->). eexists. reflexivity. Qed.

Lemma tlabels_opt : forall s n k, opt_root n k -> optional n (tlabels s k).
Proof.
  intros s n k [->|(t & -> & R)]; [left; reflexivity|right]. destruct (tlabel_root s n t R) as [o E].
  exists o. cbn. rewrite E. reflexivity.
Qed.

Lemma linked_in : forall s k t, linked s (yields k) -> In t k -> linked s (yield t).
Proof.
  intros s k t L H. apply in_split in H. destruct H as (a & b & ->). rewrite yields_app in L.
  apply linked_app in L. destruct L as [_ L]. cbn in L. apply linked_app in L. apply L.
Qed.

Lemma items_mixed : forall s P Q k, linked s (yields k) -> items P k -> (forall n, P n = true -> Q n = true) ->
  mixed Q (tlabels s k).
Proof.
  intros s P Q k. induction k as [|[ts|ts|n o kk c] k IH]; intros L H HP; [exact I| | |]; cbn in H.
  - destruct H as (H1 & H2 & H3). cbn in L. apply linked_app in L. destruct L as [L1 L2].
    cbn. split; [apply ttexts_nonempty; assumption|]. split; [|apply IH; assumption].
    destruct k as [|[ts'|ts'|n o kk c] k]; try exact I; contradiction.
  - contradiction.
  - destruct H as [H1 H2]. cbn. split; [auto|]. apply IH; auto. cbn in L. apply linked_app in L. apply L.
Qed.

Lemma leaf_text : forall s k, one_leaf k -> one_text (tlabels s k).
Proof. intros s k (b & ->). exists (ttexts s b). reflexivity. Qed.

Lemma td_labels : forall s t d, root NTitle t -> root NDestination d ->
  title_and_destination (tlabels s [t; d]).
Proof.
  intros s t d R1 R2. destruct (tlabel_root s _ _ R1) as [a E1]. destruct (tlabel_root s _ _ R2) as [b E2].
  exists a, b. cbn. rewrite E1, E2. reflexivity.
Qed.

Lemma marker_text : forall s lvl lk o, linked s o -> marker lvl lk o ->
  ttexts s o = repeat c_space lvl ++ [match lk with Unordered => c_minus | Ordered => c_plus end; c_space].
Proof.
  intros s lvl lk o [F _] (_ & m & x & K & X & H).
  assert (Gm : tok_ok s m -> ttext s m = [match lk with Unordered => c_minus | Ordered => c_plus end]).
  { intros H0. unfold list_kind_of in K.
    destruct (kind_eqb (kind m) Minus && (tlen m =? 1)) eqn:E1.
    - injection K as <-. pred_text E1. rewrite (run_text_at _ _ _ c_minus H0 E1 eq_refl).
      match goal with X : (tlen m =? 1) = true |- _ => apply Nat.eqb_eq in X; rewrite X end. reflexivity.
    - destruct (kind_eqb (kind m) Plus && (tlen m =? 1)) eqn:E2; [|discriminate].
      injection K as <-. pred_text E2. rewrite (run_text_at _ _ _ c_plus H0 E2 eq_refl).
      match goal with X : (tlen m =? 1) = true |- _ => apply Nat.eqb_eq in X; rewrite X end. reflexivity. }
  destruct lvl as [|lvl].
  - subst o. inversion F as [|? ? F1 F']; subst. inversion F' as [|? ? F2 F'']; subst. cbn.
    rewrite Gm, (x_space_1 s x); auto.
  - destruct H as (i & -> & Ei). inversion F as [|? ? F0 F1]; subst. inversion F1 as [|? ? F2 F3]; subst.
    inversion F3 as [|? ? F4 F5]; subst. change (ttexts s [i; m; x]) with (ttext s i ++ ttext s m ++ ttext s x ++ []).
    rewrite (x_indent s (S lvl) i), Gm, (x_space_1 s x); auto.
Qed.

Lemma item_labels : forall s lvl lk k, linked s (yields k) -> Forall (item_at lvl lk) k ->
  Forall (list_item lvl (match lk with Unordered => c_minus | Ordered => c_plus end)) (tlabels s k).
Proof.
  intros s lvl lk k L H. induction H as [|t k (o & kk & -> & M) H IH]; [constructor|].
  cbn in L. apply linked_app in L. destruct L as [L1 L2]. apply linked_app in L1. destruct L1 as [L0 _].
  cbn. constructor; [|apply IH; exact L2]. unfold list_item. erewrite marker_text; eauto.
Qed.

Lemma hl_labels : forall s k, linked s (yields k) -> hl_body k -> highlight_body (tlabels s k).
Proof.
  intros s k L H. induction H as [|p k R H IH|t p k T R H IH]; [constructor| |].
  - cbn in L. apply linked_app in L. destruct L as [_ L]. destruct (tlabel_root s _ _ R) as [o E].
    cbn. rewrite E. cbn. constructor. auto.
  - cbn in L. change (t :: yield p ++ flat_map yield k) with ([t] ++ yield p ++ flat_map yield k) in L.
    apply linked_app in L. destruct L as [[F _] L]. apply linked_app in L. destruct L as [_ L].
    destruct (tlabel_root s _ _ R) as [o E]. cbn. rewrite E, app_nil_r. cbn. constructor; [|auto].
    inversion F; subst. apply x_terminator; assumption.
Qed.

Lemma tlabels_nonempty : forall s lvl lk k, k <> [] -> Forall (item_at lvl lk) k -> tlabels s k <> [].
Proof. intros s lvl lk [|t k] NE H; [congruence|]. inversion H as [|? ? (o & kk & -> & _) _]; subst. discriminate. Qed.

Lemma par_label : forall s p, wf p -> root NParagraph p -> tlabel s p = [LNode NParagraph []].
Proof.
  intros s p W (o & k & c & ->). inversion W as [| |? ? ? ? _ H]; subst. destruct H as (-> & _). reflexivity.
Qed.

Lemma node_model : forall s lvl n o k c, linked s (o ++ yields k ++ c) -> Forall wf k -> shape n o k c ->
  at_level lvl (Node n o k c) -> model lvl n (ttexts s o) (tlabels s k) (ttexts s c).
Proof.
  intros s lvl n o k c L W H LV. apply linked_app in L. destruct L as [Lo L]. apply linked_app in L. destruct L as [Lk Lc].
  pose proof (fun f x (X : has s f x) => one_ttext s f o x X Lo) as To.
  pose proof (fun f x (X : has s f x) => one_ttext s f c x X Lc) as Tc.
  pose proof (fun f x (X : has s f x) => one_eol_ttext s f c x X Lc) as Te.
  destruct n; cbn [shape] in H; cbn [model].
  - (* anchor *) destruct H as (-> & -> & t & d & -> & R1 & R2). repeat split. apply td_labels; assumption.
  - (* bold *) destruct H as (H1 & H2 & H3). split; [apply (To _ _ (x_star2 s) H1)|].
    split; [|apply (Tc _ _ (x_star2 s) H3)]. eapply items_mixed; eauto.
  - (* code *) destruct H as (H1 & k1 & b & -> & H2). split; [|apply (Te _ _ (x_backtick3 s) H1)].
    exists (tlabels s k1), (ttexts s b). split; [apply tlabels_app|].
    destruct H2 as [[H2 H3]|[(t & u & -> & E1 & E2) ->]].
    + left. split; [apply (To _ _ (x_backtick3 s) H2)|apply tlabels_opt; exact H3].
    + right. destruct Lo as [F _]. inversion F as [|? ? F1 F2]; subst. inversion F2 as [|? ? F3 F4]; subst.
      exists (ttext s u). split; [apply x_eol; assumption|]. split; [|reflexivity].
      cbn. rewrite (x_backtick3 s t F1 E1), app_nil_r. reflexivity.
  - destruct H as (H1 & H2 & H3). split; [apply (To _ _ (x_backtick s) H1)|]. split; [apply leaf_text; exact H2|apply (Tc _ _ (x_backtick s) H3)].
  - (* collapsible *) destruct H as ((t & u & -> & E1 & E2) & H1 & k1 & k2 & k3 & -> & H2 & H3).
    destruct Lo as [F _]. inversion F as [|? ? F1 F2]; subst. inversion F2 as [|? ? F3 F4]; subst.
    split.
    { exists (ttext s u). split; [cbn; rewrite (x_collapsible_start s t F1 E1), app_nil_r; reflexivity|].
      apply x_space_or_eol; assumption. }
    split; [|apply (Te _ _ (x_collapsible_end s) H1)].
    exists (tlabels s k1). split; [|apply tlabels_opt; exact H2]. rewrite tlabels_app. f_equal. cbn.
    destruct H3 as [->|(e & -> & _)]; reflexivity.
  - destruct H as (H1 & H2 & H3). split; [apply (To _ _ (x_left_paren s) H1)|]. split; [apply leaf_text; exact H2|apply (Tc _ _ (x_right_paren s) H3)].
  - (* document *) destruct H as (-> & -> & H). split; [reflexivity|]. split; [|reflexivity].
    clear - H Lk. induction k as [|t k IH]; [constructor|]. cbn in Lk. apply linked_app in Lk. destruct Lk as [L1 L2].
    inversion H as [|? ? B H']; subst. cbn. apply Forall_app. split; [|apply IH; assumption].
    destruct t as [ts|ts|n o kk c]; cbn in B.
    + destruct B as (x & -> & T). constructor; [|constructor]. cbn. rewrite app_nil_r. destruct L1 as [F _].
      inversion F; subst. apply x_terminator; assumption.
    + contradiction.
    + constructor; [|constructor]. cbn. destruct B as [B|(lk & k' & E & _)].
      * destruct n; try discriminate; exact I.
      * injection E as -> _ _ _. destruct lk; exact I.
  - (* embed *) destruct H as (H1 & H2 & a & x & b & -> & E). split; [apply (To _ _ (x_left_curly2 s) H1)|].
    split; [|apply (Te _ _ (x_right_curly2 s) H2)]. exists (ttexts s a), (ttexts s b). cbn.
    rewrite app_nil_r. rewrite (x_pipe s x); auto. cbn in Lk. apply linked_app in Lk. destruct Lk as [_ [F _]]. inversion F; assumption.
  - destruct H as (H1 & H2 & H3). split; [apply (To _ _ (x_star s) H1)|]. split; [apply leaf_text; exact H2|apply (Tc _ _ (x_star s) H3)].
  - (* heading *) destruct H as ((t & u & -> & E1 & E2) & -> & H & _).
    destruct Lo as [F _]. inversion F as [|? ? F1 F2]; subst. inversion F2 as [|? ? F3 F4]; subst. split.
    { destruct (x_hash s t F1 E1) as (l & Hl & E). exists l. split; [exact Hl|]. cbn. rewrite E, (x_space_1 s u); auto. }
    split; [|reflexivity]. eapply items_mixed; eauto.
  - (* highlight *) destruct H as (H1 & k1 & k2 & k3 & -> & H2 & H3 & H4). split; [|apply (Te _ _ (x_two_bangs s) H1)].
    rewrite !yields_app in Lk. apply linked_app in Lk. destruct Lk as [_ Lk]. apply linked_app in Lk. destruct Lk as [_ Lk].
    exists (tlabels s k1), (tlabels s k2), (tlabels s k3). rewrite !tlabels_app. split; [reflexivity|].
    split; [apply tlabels_opt; exact H2|]. split; [apply hl_labels; assumption|].
    destruct H4 as [[H4 H5]|[(t & u & -> & E1 & E2) ->]].
    + left. split; [|apply tlabels_opt; exact H5]. erewrite (two_ttext s _ _ o); eauto; [|apply x_two_bangs|apply x_space_1]. reflexivity.
    + right. destruct Lo as [F _]. inversion F as [|? ? F1 F2]; subst. inversion F2 as [|? ? F3 F4]; subst.
      exists (ttext s u). split; [apply x_eol; assumption|]. split; [|reflexivity].
      cbn. rewrite (x_two_bangs s t F1 E1), app_nil_r. reflexivity.
  - (* icon *) destruct H as (H1 & H2 & (e & -> & E)). split.
    { erewrite (two_ttext s _ _ o); eauto; [|apply x_one_bang|apply x_space_1]. reflexivity. }
    split; [apply leaf_text; exact H2|]. cbn. rewrite app_nil_r. destruct Lc as [F _]. inversion F; subst. apply x_eol; assumption.
  - (* image *) destruct H as (_ & H1 & H2 & t & d & -> & R1 & R2). split; [apply (To _ _ (x_bang s) H1)|].
    split; [apply td_labels; assumption|]. destruct H2 as [->|(e & -> & E)]; [left; reflexivity|right].
    cbn. rewrite app_nil_r. destruct Lc as [F _]. inversion F; subst. apply x_eol; assumption.
  - (* images *) destruct H as (-> & -> & H1 & H2). split; [reflexivity|].
    assert (G : List.length (tlabels s k) = List.length k /\ Forall (fun k => k = LNode NImage (s_ "!")) (tlabels s k)).
    { clear - H2 W Lk. induction k as [|t k IH]; [split; [reflexivity|constructor]|].
      inversion H2 as [|? ? (o & kk & c & ->) H2']; subst. inversion W as [|? ? W1 W2]; subst. cbn in Lk. apply linked_app in Lk.
      destruct Lk as [L1 L2]. apply linked_app in L1. destruct L1 as [L0 _]. cbn.
      destruct (IH L2 W2 H2') as [G1 G2]. split; [f_equal; exact G1|]. constructor; [|exact G2].
      inversion W1 as [| |? ? ? ? _ Sh]; subst. destruct Sh as (_ & Sh & _). f_equal.
      apply (one_ttext s is_bang o); auto. apply x_bang. }
    destruct G as [G1 G2]. rewrite G1. auto.
  - destruct H as (H1 & H2 & H3). split; [apply (To _ _ (x_underscore s) H1)|]. split; [apply leaf_text; exact H2|apply (Tc _ _ (x_underscore s) H3)].
  - (* list item *) destruct H as (-> & l & lk & p & M & R & H). destruct LV as [lk' M'].
    assert (l = lvl) by (eapply marker_level; eauto); subst l. split; [|split; [|reflexivity]].
    { exists (match lk with Unordered => c_minus | Ordered => c_plus end). split; [destruct lk; auto|].
      apply marker_text; assumption. }
    destruct H as [->|(x & -> & (lk2 & kk & -> & _))].
    + left. cbn. inversion W; subst. rewrite par_label; auto.
    + right. exists (list_kind_node lk2). split; [destruct lk2; auto|]. cbn. inversion W; subst. rewrite par_label; auto.
  - (* modifier *) destruct H as (-> & H2 & (e & -> & E)). split; [reflexivity|]. split; [apply leaf_text; exact H2|].
    cbn. rewrite app_nil_r. destruct Lc as [F _]. inversion F; subst. apply x_eol_or_terminator; assumption.
  - destruct H as (H1 & H2 & H3). split; [apply (To _ _ (x_three_dashes s) H1)|]. split; [apply leaf_text; exact H2|apply (Tc _ _ (x_three_dashes s) H3)].
  - (* ordered list *) destruct H as (-> & -> & H & _). destruct LV as (lk & k' & E & _ & HI). assert (k' = k) by congruence; subst k'.
    destruct lk; [discriminate|].
    split; [reflexivity|]. split; [eapply tlabels_nonempty; eauto|]. split; [|reflexivity]. apply (item_labels s lvl Ordered); assumption.
  - (* paragraph *) destruct H as (-> & -> & H & _). split; [reflexivity|]. split; [|reflexivity]. eapply items_mixed; eauto.
  - destruct H as (H1 & H2 & H3). split; [apply (To _ _ (x_tilde s) H1)|]. split; [apply leaf_text; exact H2|apply (Tc _ _ (x_tilde s) H3)].
  - (* break *) destruct H as (-> & -> & t & -> & E). split; [reflexivity|]. split; [|reflexivity]. cbn.
    rewrite app_nil_r. cbn in Lk. destruct Lk as [F _]. inversion F; subst. rewrite (x_dash5 s t); auto.
  - destruct H as (H1 & H2 & H3). split; [apply (To _ _ (x_left_bracket s) H1)|]. split; [apply leaf_text; exact H2|apply (Tc _ _ (x_right_bracket s) H3)].
  - (* unordered list *) destruct H as (-> & -> & H & _). destruct LV as (lk & k' & E & _ & HI). assert (k' = k) by congruence; subst k'.
    destruct lk; [|discriminate].
    split; [reflexivity|]. split; [eapply tlabels_nonempty; eauto|]. split; [|reflexivity]. apply (item_labels s lvl Unordered); assumption.
Qed.

Lemma forest_app : forall lvl a x, forest lvl a x -> forall b y, forest lvl b y -> forest lvl (a ++ b) (x ++ y).
Proof.
  intros lvl a x H. induction H as [lvl|lvl z ks es H IH|lvl n o c inner body ks es M H1 IH1 H2 IH2]; intros b y Hb.
  - exact Hb.
  - cbn. constructor. auto.
  - cbn. rewrite <- app_assoc. cbn. eapply forest_node; eauto.
Qed.

Lemma tree_forest : forall s t lvl, wf t -> linked s (yield t) -> at_level lvl t ->
  forest lvl (tlabel s t) (tevents s t).
Proof.
  intros s. induction t as [ts|ts|n o k c IH] using tree_ind'; intros lvl W L LV.
  - cbn. repeat constructor.
  - constructor.
  - inversion W as [| |? ? ? ? Wk Sh]; subst. cbn [yield] in L. fold (yields k) in L.
    cbn. eapply forest_node with (inner := tlabels s k); [| |constructor].
    + apply node_model; assumption.
    + pose proof (kids_level lvl n o k c Sh LV) as LK. apply linked_app in L. destruct L as [_ L].
      apply linked_app in L. destruct L as [L _]. clear - IH Wk LK L.
      unfold tlabels. induction k as [|t k IHk]; [constructor|]. cbn in *. inversion IH; subst. inversion Wk; subst.
      inversion LK; subst. apply linked_app in L. destruct L. apply forest_app; auto.
Qed.

Lemma trees_forest : forall s k lvl, Forall wf k -> linked s (yields k) -> Forall (at_level lvl) k ->
  forest lvl (tlabels s k) (tevents_all s k).
Proof.
  intros s k lvl. induction k as [|t k IH]; intros W L LV; [constructor|]. cbn in *.
  inversion W; subst. inversion LV; subst. apply linked_app in L. destruct L.
  apply forest_app; [apply tree_forest; assumption|apply IH; assumption].
Qed.

(** ** The whole stream *)

Definition stream (s : str) : list event := tevents_all s (fparse (spec_tokens s)).

Lemma parse_reads : forall s ops, parse s = Ok ops -> reads s ops (stream s).
Proof.
  intros s ops H. destruct (parse_refines s) as [E _]. rewrite E in H. injection H as <-.
  apply flattens_reads, fparse_linked.
Qed.

Lemma stream_valid : forall s, valid_stream (stream s).
Proof.
  intros s. destruct (fparse_wf (spec_tokens s)) as [W (k1 & d & E & R & O)].
  pose proof (fparse_linked s) as L. unfold stream. rewrite E in *.
  exists (tlabels s k1). split; [apply tlabels_opt; exact O|].
  assert (X : tlabels s (k1 ++ [d]) = tlabels s k1 ++ [LNode NDocument []]).
  { rewrite tlabels_app. f_equal. destruct R as (o & k & c & ->). apply Forall_app in W. destruct W as [_ W].
    inversion W as [|? ? W1 _]; subst. inversion W1 as [| |? ? ? ? _ Sh]; subst. destruct Sh as (-> & _). reflexivity. }
  rewrite <- X. apply trees_forest; [exact W|exact L|]. apply Forall_app. split.
  - eapply opt_root_level; eauto. exact I.
  - constructor; [|constructor]. eapply root_level; eauto. exact I.
Qed.

Lemma parse_valid : forall s ops, parse s = Ok ops -> exists es, reads s ops es /\ valid_stream es.
Proof. intros s ops H. exists (stream s). split; [apply parse_reads; exact H|apply stream_valid]. Qed.

(** ** Balance *)

Lemma balanced_app : forall a b, balanced a -> balanced b -> balanced (a ++ b).
Proof.
  intros a b H. revert b. induction H as [|l H IH|n a l Ha IHa Hl IHl]; intros b Hb; [exact Hb| |].
  - cbn. constructor. auto.
  - cbn. rewrite <- app_assoc. cbn. constructor; auto.
Qed.

Lemma flatten_balanced : forall s t, balanced (map op_kind_of (flatten s t)).
Proof.
  intros s. induction t as [ts|ts|n o k c IH] using tree_ind'; [repeat constructor|constructor|].
  cbn. rewrite map_app. cbn. constructor; [|constructor].
  induction k as [|t k IHk]; [constructor|]. cbn. rewrite map_app. inversion IH; subst. apply balanced_app; auto.
Qed.

Lemma parse_balanced : forall s ops, parse s = Ok ops -> balanced (map op_kind_of ops).
Proof.
  intros s ops H. destruct (parse_refines s) as [E _]. rewrite E in H. injection H as <-. clear E.
  unfold flattens. induction (fparse (spec_tokens s)) as [|t k IH]; [constructor|]. cbn. rewrite map_app.
  apply balanced_app; [apply flatten_balanced|exact IH].
Qed.
