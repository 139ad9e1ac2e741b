(** [Display] writes the ordinary characters of a document, in their order. *)
From Coq Require Import Lia String Wf_nat.
From Verif Require Import Base LexFacts EscapeSpec Escapes Ast ToYamd Api TextSpec Texts.
Open Scope list_scope.

(** ** Display *)

(** [Display] adds no character of these. *)
Definition written (c : char) : bool := ordinary c || char_eqb c c_cr.
Notation ord := (filter written).

Lemma ord_app : forall a b, ord (a ++ b) = ord a ++ ord b.
Proof. intros a b. apply filter_app. Qed.
Lemma ord_replace : forall p r x, p <> [] -> ord p = ord r -> ord (replace p r x) = ord x.
Proof.
  intros p r x N E. remember (length x) as n eqn:L. revert x L. induction n as [n IH] using lt_wf_ind. intros x L. destruct x as [|c x]; [reflexivity|].
  destruct (starts_with p (c :: x)) eqn:S1.
  - apply starts_with_split in S1. destruct S1 as (y & S1). rewrite S1, replace_hit by exact N. rewrite !ord_app, E. f_equal. apply (IH (length y)); [|reflexivity].
    subst n. rewrite S1, app_length. destruct p; [congruence|cbn; lia].
  - rewrite replace_miss by (intros z Z; rewrite Z, starts_with_app in S1; discriminate). cbn [filter]. rewrite (IH (length x)); [reflexivity|subst n; cbn; lia|reflexivity].
Qed.
Lemma ord_esc : forall c x, ord (esc_char c x) = ord x.
Proof. intros c x. apply ord_replace; [discriminate|reflexivity]. Qed.
Lemma ord_flat : forall A (f g : A -> str) l, Forall (fun a => ord (f a) = ord (g a)) l -> ord (flat_map f l) = ord (flat_map g l).
Proof. induction 1 as [|a l H F IH]; [reflexivity|]. cbn. rewrite !ord_app, H, IH. reflexivity. Qed.
Lemma ord_join : forall sep l, ord sep = [] -> ord (join sep l) = ord (concat l).
Proof.
  intros sep l E. induction l as [|x l IH]; [reflexivity|]. destruct l as [|y l]; [cbn; rewrite app_nil_r; reflexivity|].
  change (join sep (x :: y :: l)) with (x ++ sep ++ join sep (y :: l)). change (concat (x :: y :: l)) with (x ++ concat (y :: l)). rewrite !ord_app, E, IH. reflexivity.
Qed.
Lemma ord_join_map : forall A sep (f g : A -> str) l, ord sep = [] -> Forall (fun a => ord (f a) = ord (g a)) l -> ord (join sep (map f l)) = ord (flat_map g l).
Proof. intros A sep f g l E F. rewrite ord_join by exact E. rewrite <- flat_map_concat_map. apply ord_flat. exact F. Qed.
Lemma ord_lead : forall x, ord (escape_leading_block_marker x) = ord x.
Proof. intros x. unfold escape_leading_block_marker. destruct (_ || _)%bool; reflexivity. Qed.
Lemma ord_repeat : forall c n, written c = false -> ord (repeat_char c n) = [].
Proof. intros c n H. unfold repeat_char. induction n; cbn; [reflexivity|]. rewrite H. exact IHn. Qed.

Ltac ords := repeat first [rewrite ord_app | rewrite ord_esc | rewrite ord_replace by (discriminate || reflexivity) | rewrite ord_lead].

Lemma ord_bold_node : forall b, ord (display_bold_node b) = ord (bold_text b).
Proof. intros [x|x|x]; unfold display_bold_node, display_italic, display_strike; ords; cbn; rewrite ?app_nil_r; reflexivity. Qed.
Lemma ord_bold : forall b, ord (display_bold b) = ord (flat_map bold_text b).
Proof.
  intros b. unfold display_bold. destruct (bold_has_content b) eqn:E.
  - ords. change (ord (s_ "**")) with (@nil char). rewrite app_nil_r. cbn [app]. apply ord_flat. apply Forall_forall. intros n _. ords. apply ord_bold_node.
  - unfold bold_has_content in E. induction b as [|n b IH]; [reflexivity|]. cbn in E. apply orb_false_elim in E. destruct E as [E1 E2].
    destruct n as [x|x|[|c x]]; try discriminate E1. cbn. exact (IH E2).
Qed.
Lemma ord_anchor : forall t u, ord (display_anchor t u) = ord (t ++ u).
Proof. intros t u. unfold display_anchor. ords. cbn. rewrite app_nil_r. reflexivity. Qed.
Lemma ord_par : forall n, ord (display_par_node n) = ord (par_text n).
Proof.
  intros [t u|b|x|x|x|x|x]; cbn [display_par_node par_text]; [apply ord_anchor|apply ord_bold| | | | |];
    unfold display_italic, display_strike, display_text, display_code_span, display_emphasis.
  4: destruct x as [|c x]; [reflexivity|].
  all: ords; cbn [s_ app]; try reflexivity; change (ord (s_ "_")) with (@nil char); change (ord (s_ "~~")) with (@nil char);
    change (ord (s_ "`")) with (@nil char); change (ord (s_ "*")) with (@nil char); cbn [app]; rewrite ?app_nil_r; reflexivity.
Qed.
Lemma ord_pars : forall l, ord (display_paragraph l) = ord (pars_text l).
Proof. intros l. apply ord_flat. apply Forall_forall. intros n _. apply ord_par. Qed.
Lemma ord_head : forall n, ord (display_head_node n) = ord (head_text n).
Proof. intros [x|t u]; cbn [display_head_node head_text]; [ords; reflexivity|apply ord_anchor]. Qed.
Lemma ord_image : forall i, ord (display_image i) = ord (image_text i).
Proof. intros i. unfold display_image, image_text. ords. cbn. rewrite app_nil_r. reflexivity. Qed.

(** Structural induction through the lists of items and of blocks. *)
Fixpoint ylist_rect' (P : ylist -> Prop) (Q : yitem -> Prop)
  (HL : forall ty n its, Forall Q its -> P (YList ty n its))
  (HN : forall t, Q (YItem t None)) (HS : forall t l, P l -> Q (YItem t (Some l))) (l : ylist) : P l :=
  match l with
  | YList ty n its =>
      HL ty n its ((fix go its := match its return Forall Q its with
                                  | [] => Forall_nil _
                                  | YItem t o :: r =>
                                      Forall_cons _
                                        (match o return Q (YItem t o) with
                                         | None => HN t
                                         | Some l' => HS t l' (ylist_rect' P Q HL HN HS l')
                                         end) (go r)
                                  end) its)
  end.

Definition item_text (it : yitem) : str :=
  match it with YItem t n => pars_text t ++ match n with Some l' => list_text l' | None => [] end end.

Lemma ord_list : forall l, ord (display_list l) = ord (list_text l).
Proof.
  apply (ylist_rect' (fun l => ord (display_list l) = ord (list_text l)) (fun it => ord (display_item it) = ord (item_text it))).
  - intros ty n its F. cbn [display_list list_text]. apply (ord_join_map _ nl _ item_text its eq_refl).
    eapply Forall_impl; [|exact F]. intros it H. rewrite ord_app, ord_repeat by reflexivity. cbn [app].
    rewrite !ord_app, ord_replace; [|discriminate|destruct ty; reflexivity]. rewrite H. destruct ty; reflexivity.
  - intros t. cbn. rewrite app_nil_r. apply ord_pars.
  - intros t l H. cbn [display_item item_text]. rewrite !ord_app, H. f_equal. apply ord_pars.
Qed.

Fixpoint ynode_rect' (P : ynode -> Prop) (HC : forall t b, Forall P b -> P (YCollapsible t b))
  (HO : forall n, match n with YCollapsible _ _ => True | _ => P n end) (n : ynode) : P n :=
  match n return match n with YCollapsible _ _ => True | _ => P n end -> P n with
  | YCollapsible t b => fun _ =>
      HC t b ((fix go b := match b return Forall P b with
                           | [] => Forall_nil _
                           | m :: r => Forall_cons _ (ynode_rect' P HC HO m) (go r)
                           end) b)
  | _ => fun H => H
  end (HO n).

Lemma ord_hl : forall p, ord (escape_leading_block_marker (replace (s_ "!!") (c_bslash :: s_ "!!") (display_paragraph p))) = ord (pars_text p).
Proof. intros p. ords. apply ord_pars. Qed.

Lemma ord_node : forall n, ord (display_node n) = ord (node_text n) /\ ord (display_block n) = ord (node_text n).
Proof.
  apply ynode_rect'.
  - intros t b F. assert (G : ord (display_node (YCollapsible t b)) = ord (node_text (YCollapsible t b))); [|split; exact G].
    cbn [display_node node_text]. change (fun m => match m with YParagraph p => escape_leading_block_marker (display_paragraph p) | _ => display_node m end) with display_block.
    ords. rewrite (ord_join_map _ nlnl display_block node_text b eq_refl) by (eapply Forall_impl; [|exact F]; intros m [_ H]; exact H).
    cbn. rewrite !app_nil_r. reflexivity.
  - intros [b|l b|i|l|lang code|l|t i b| |k a|t b]; try exact I; cbn [display_node display_block node_text].
    + rewrite ord_lead, ord_pars. split; reflexivity.
    + assert (G : ord (display_heading l b) = ord (flat_map head_text b)); [|split; exact G]. unfold display_heading. ords. rewrite ord_repeat by reflexivity.
      cbn [app filter s_]. change (ord (s_ " ")) with (@nil char). cbn [app]. apply ord_flat. apply Forall_forall. intros n _. apply ord_head.
    + rewrite ord_image. split; reflexivity.
    + assert (G : ord (display_images l) = ord (flat_map image_text l)); [|split; exact G].
      apply ord_join_map; [reflexivity|]. apply Forall_forall. intros n _. apply ord_image.
    + assert (G : ord (display_code lang code) = ord (lang ++ code)); [|split; exact G]. unfold display_code. ords.
      cbn. rewrite !app_nil_r. reflexivity.
    + rewrite ord_list. split; reflexivity.
    + assert (G : ord (display_highlight t i b) = ord (opt_text t ++ opt_text i ++ flat_map pars_text b)); [|split; exact G].
      unfold display_highlight. rewrite !ord_app. rewrite (ord_join_map _ nlnl _ pars_text b eq_refl) by (apply Forall_forall; intros p _; apply ord_hl).
      destruct t as [t|], i as [i|]; ords; cbn; rewrite ?app_nil_r; reflexivity.
    + split; reflexivity.
    + assert (G : ord (display_embed k a) = ord (k ++ a)); [|split; exact G]. unfold display_embed. ords. cbn. rewrite !app_nil_r. reflexivity.
Qed.

Theorem display_written : forall y, ord (display_yamd y) = ord (doc_text y).
Proof.
  intros [m b]. unfold display_yamd, doc_text. cbn [metadata body].
  assert (B : ord (display_body b) = ord (flat_map node_text b)).
  { apply ord_join_map; [reflexivity|]. apply Forall_forall. intros n _. apply ord_node. }
  destruct m as [m|]; [|exact B]. rewrite !ord_app, B. cbn [opt_text].
  destruct (ends_with_char c_nl m); cbn; reflexivity.
Qed.

Lemma ordinary_written : forall x, filter ordinary (ord x) = filter ordinary x.
Proof.
  induction x as [|c x IH]; [reflexivity|]. cbn [filter]. destruct (written c) eqn:W; cbn [filter]; [rewrite IH; reflexivity|].
  unfold written in W. apply orb_false_elim in W. destruct W as [W _]. rewrite W. exact IH.
Qed.
Theorem display_ordinary : forall y, filter ordinary (display_yamd y) = filter ordinary (doc_text y).
Proof. intros y. rewrite <- ordinary_written, display_written. apply ordinary_written. Qed.
Lemma unescape_in : forall c s, In c (unescape s) -> In c s.
Proof.
  intros c s. remember (length s) as n eqn:L. revert s L. induction n as [n IH] using lt_wf_ind. intros s L H. destruct s as [|d s]; [exact H|]. cbn [unescape] in H. destruct (char_eqb d c_bslash).
  - destruct s as [|e s]; [contradiction H|]. right. destruct H as [H|H]; [left; exact H|right]. apply (IH (length s)); [subst n; cbn; lia|reflexivity|exact H].
  - destruct H as [H|H]; [left; exact H|right]. apply (IH (length s)); [subst n; cbn; lia|reflexivity|exact H].
Qed.
Theorem display_cr : forall y, In c_cr (display_yamd y) <-> In c_cr (doc_text y).
Proof.
  intros y. assert (W : forall x, In c_cr x <-> In c_cr (ord x)) by (intros x; rewrite filter_In; split; [intros H; split; [exact H|reflexivity]|intros [H _]; exact H]).
  rewrite W, display_written, <- W. reflexivity.
Qed.
Theorem source_cr : forall s y, deserialize s = Ok y -> In c_cr (display_yamd y) -> In c_cr s.
Proof.
  intros s y E H. apply display_cr in H. apply texts_kept in E. apply unescape_in. revert H. induction E as [|c x y' K IH|c x y' D K IH]; intros H; [exact H|destruct H as [H|H]; [left; exact H|right; exact (IH H)]|right; exact (IH H)].
Qed.

Theorem format_keeps_text : forall y y', deserialize (display_yamd y) = Ok y' -> filter ordinary (doc_text y') = filter ordinary (doc_text y).
Proof. intros y y' H. rewrite (ordinary_kept _ _ H). apply display_ordinary. Qed.
