(** The text of a document is the source without delimiters and escaping backslashes. *)
From Coq Require Import Lia.
From Verif Require Import Base Lexer LexSpec LexProofs LexFacts Ops Parser FParser Refine Refine2 Refine3
  Wf TokFacts Ast ToYamd Api StreamSpec StreamProofs StreamProofs2 TreeAst TextSpec.

(** ** [keeps] *)

Lemma keeps_refl : forall x, keeps x x.
Proof. induction x; constructor; assumption. Qed.
Lemma keeps_app : forall a b x y, keeps a x -> keeps b y -> keeps (a ++ b) (x ++ y).
Proof. intros a b x y H. revert b y. induction H; intros b z G; cbn; [exact G|constructor; auto|constructor; auto]. Qed.
Lemma keeps_drop : forall x, Forall (fun c => delimiter c = true) x -> keeps [] x.
Proof. induction 1; constructor; assumption. Qed.
Lemma keeps_left : forall a x y, keeps [] a -> keeps x y -> keeps x (a ++ y).
Proof. intros a x y H G. exact (keeps_app [] x a y H G). Qed.
Lemma keeps_right : forall a x y, keeps [] a -> keeps x y -> keeps x (y ++ a).
Proof. intros a x y H G. rewrite <- (app_nil_r x). exact (keeps_app x [] y a G H). Qed.
Lemma keeps_trans : forall x y z, keeps x y -> keeps y z -> keeps x z.
Proof.
  intros x y z H G. revert x H. induction G as [|c y z G IH|c y z D G IH]; intros x H.
  - exact H.
  - inversion H; subst; [constructor; auto|constructor; auto].
  - constructor; auto.
Qed.
Lemma keeps_trim_start : forall c x, delimiter c = true -> keeps (trim_start c x) x.
Proof.
  intros c x D. induction x as [|d x IH]; cbn; [constructor|]. destruct (char_eqb c d) eqn:E; [|apply keeps_refl].
  apply char_eqb_eq in E. subst d. constructor; assumption.
Qed.
Lemma keeps_rev : forall x y, keeps x y -> keeps (rev x) (rev y).
Proof.
  induction 1 as [|c x y H IH|c x y D H IH]; cbn; [constructor|apply keeps_app; [exact IH|apply keeps_refl]|].
  apply keeps_right; [|exact IH]. constructor; [exact D|constructor].
Qed.
Lemma keeps_trim_end : forall c x, delimiter c = true -> keeps (trim_end c x) x.
Proof. intros c x D. unfold trim_end. rewrite <- (rev_involutive x) at 2. apply keeps_rev, keeps_trim_start, D. Qed.
Lemma keeps_trim_both : forall c x, delimiter c = true -> keeps (trim_both c x) x.
Proof. intros c x D. unfold trim_both. eapply keeps_trans; [apply keeps_trim_end, D|apply keeps_trim_start, D]. Qed.
Lemma keeps_flat : forall A (f g : A -> str) l, Forall (fun a => keeps (f a) (g a)) l -> keeps (flat_map f l) (flat_map g l).
Proof. induction 1; cbn; [constructor|apply keeps_app; assumption]. Qed.

(** ** Delimiter tokens *)

Definition dtok (t : token) : bool := match kind t with Literal | GreaterThan => false | _ => true end.

Lemma drop_repeat : forall c n, delimiter c = true -> keeps [] (repeat c n).
Proof. intros c n D. apply keeps_drop. induction n; constructor; assumption. Qed.
Lemma drop_ending : forall x, line_ending x -> keeps [] x.
Proof. intros x [->| ->]; repeat constructor. Qed.

Lemma drop_token : forall s t, tok_ok s t -> dtok t = true -> keeps [] (ttext s t).
Proof.
  intros s t (x & Hx & _ & K & _) D. unfold ttext. rewrite Hx. unfold dtok in D.
  destruct (kind t); try discriminate D; specialize (K ltac:(discriminate)); cbn in K;
    try (subst x; repeat constructor; fail);
    try (destruct K as [n ->]; apply (drop_repeat _ (S n)); reflexivity);
    try (apply drop_ending; exact K).
  destruct K as (a & b & -> & A & B). apply keeps_left; [apply drop_ending; exact A|apply drop_ending; exact B].
Qed.

Lemma kindb : forall a b, kind_eqb a b = true -> a = b.
Proof. intros a b H. unfold kind_eqb in H. destruct (kind_eq_dec a b); [assumption|discriminate]. Qed.

Ltac kinds :=
  repeat match goal with
  | H : (_ && _)%bool = true |- _ => apply andb_prop in H; destruct H
  | H : (_ || _)%bool = true |- _ => apply Bool.orb_prop in H; destruct H
  | H : kind_eqb _ _ = true |- _ => apply kindb in H
  end.
Ltac dkind := unfold dtok; kinds; match goal with H : kind _ = _ |- _ => rewrite H; reflexivity end.

Section Text.
  Variable s : str.
  Notation Y k := (ttexts s (yields k)).

  Lemma ttexts_app : forall a b, ttexts s (a ++ b) = ttexts s a ++ ttexts s b.
  Proof. intros a b. apply flat_map_app. Qed.
  Lemma yield_node : forall n o k c, ttexts s (yield (Node n o k c)) = ttexts s o ++ Y k ++ ttexts s c.
  Proof. intros n o k c. cbn [yield]. rewrite !ttexts_app. reflexivity. Qed.
  Lemma Y_cons : forall t k, Y (t :: k) = ttexts s (yield t) ++ Y k.
  Proof. intros t k. unfold yields. cbn [flat_map]. apply ttexts_app. Qed.
  Lemma Y_app : forall a b, Y (a ++ b) = Y a ++ Y b.
  Proof. intros a b. unfold yields. rewrite flat_map_app. apply ttexts_app. Qed.

  Lemma drop_tokens : forall ts, linked s ts -> Forall (fun t => dtok t = true) ts -> keeps [] (ttexts s ts).
  Proof.
    intros ts [F _] D. induction ts as [|t ts IH]; [constructor|]. inversion F; subst. inversion D; subst.
    change (ttexts s (t :: ts)) with (ttext s t ++ ttexts s ts). apply keeps_left; [apply drop_token; assumption|auto].
  Qed.

  Lemma keeps_node : forall n o k c x, linked s (o ++ yields k ++ c) -> Forall (fun t => dtok t = true) o ->
    Forall (fun t => dtok t = true) c -> keeps x (Y k) -> keeps x (ttexts s (yield (Node n o k c))).
  Proof.
    intros n o k c x L Do Dc K. rewrite yield_node. apply linked_app in L. destruct L as [Lo L]. apply linked_app in L. destruct L as [_ Lc].
    apply keeps_left; [apply drop_tokens; assumption|]. apply keeps_right; [apply drop_tokens; assumption|exact K].
  Qed.

  Definition marks (n : node) (o c : list token) : Prop := Forall (fun t => dtok t = true) o /\ Forall (fun t => dtok t = true) c.

  Lemma one_d : forall f ts, one f ts -> (forall t, f t = true -> dtok t = true) -> Forall (fun t => dtok t = true) ts.
  Proof. intros f ts (t & -> & H) G. repeat constructor. auto. Qed.
  Lemma two_d : forall f g ts, two f g ts -> (forall t, f t = true -> dtok t = true) -> (forall t, g t = true -> dtok t = true) ->
    Forall (fun t => dtok t = true) ts.
  Proof. intros f g ts (t & u & -> & H & H') G G'. repeat constructor; auto. Qed.
  Lemma eol_d : forall t, is_eol t = true -> dtok t = true.
  Proof. unfold is_eol. intros t H. dkind. Qed.
  Lemma one_eol_d : forall f ts, one_eol f ts -> (forall t, f t = true -> dtok t = true) -> Forall (fun t => dtok t = true) ts.
  Proof. intros f ts (t & H & [->|(e & -> & E)]) G; repeat constructor; auto using eol_d. Qed.
  Lemma marker_d : forall lvl lk o, marker lvl lk o -> Forall (fun t => dtok t = true) o.
  Proof.
    intros lvl lk o (_ & m & sp & M & S1 & H).
    assert (Dm : dtok m = true).
    { unfold list_kind_of in M. unfold dtok. destruct (kind_eqb (kind m) Minus && (tlen m =? 1)) eqn:E; [kinds; destruct (kind m); congruence|].
      destruct (kind_eqb (kind m) Plus && (tlen m =? 1)) eqn:E'; [|discriminate]. kinds. destruct (kind m); congruence. }
    assert (Ds : dtok sp = true) by (unfold is_space_1 in S1; dkind).
    destruct lvl; [subst o; auto|]. destruct H as (i & -> & I). repeat constructor; auto. unfold is_indent in I. dkind.
  Qed.

  Ltac solve_d :=
    first [ exact (Forall_nil _) | subst; exact (Forall_nil _) | eapply one_d; [eassumption|] | eapply two_d; [eassumption| |] | eapply one_eol_d; [eassumption|] | eapply marker_d; eassumption ];
    let t0 := fresh "t0" in let H0 := fresh "Hd" in intros t0 H0;
    unfold is_three_dashes, is_left_bracket, is_right_bracket, is_underscore, is_tilde, is_star, is_backtick, is_left_paren, is_right_paren, is_star2, is_hash,
      is_space_1, is_bang, is_eol, is_eol_or_terminator, is_one_bang, is_two_bangs, is_left_curly2, is_right_curly2, is_backtick3, is_collapsible_start,
      is_collapsible_end, is_space_or_eol in H0; dkind.

  (** Every delimiter of a node is made of delimiter tokens. *)
  Lemma shape_marks : forall n o k c, shape n o k c -> marks n o c.
  Proof.
    intros n o k c H. destruct n; cbn [shape] in H; repeat match goal with H : _ /\ _ |- _ => destruct H end; split; try solve_d.
    all: repeat match goal with H : _ \/ _ |- _ => destruct H | H : exists _, _ |- _ => destruct H | H : _ /\ _ |- _ => destruct H end; solve_d.
  Qed.

  (** ** Inline nodes *)

  Lemma inner_leaf : forall k, one_leaf k -> inner s k = Y k.
  Proof. intros k (b & ->). unfold inner, yields. cbn. rewrite !app_nil_r. reflexivity. Qed.

  Definition tlinked (t : tree) : Prop := linked s (yield t).
  Lemma linked_each : forall k, linked s (yields k) -> Forall tlinked k.
  Proof. induction k as [|t k IH]; intro L; [constructor|]. apply linked_cons in L. destruct L. constructor; auto. Qed.

  Lemma wf_inv : forall n o k c, wf (Node n o k c) -> Forall wf k /\ shape n o k c.
  Proof. intros n o k c H. inversion H; auto. Qed.
  Lemma keeps_wf : forall n o k c x, wf (Node n o k c) -> tlinked (Node n o k c) -> keeps x (Y k) -> keeps x (ttexts s (yield (Node n o k c))).
  Proof. intros n o k c x W L K. apply wf_inv in W. destruct W as [_ S1]. apply shape_marks in S1. destruct S1. apply keeps_node; assumption. Qed.
  Lemma kids_linked : forall n o k c, tlinked (Node n o k c) -> linked s (yields k).
  Proof. intros n o k c L. eapply linked_kids. exact L. Qed.
  Lemma kids : forall n o k c, wf (Node n o k c) -> tlinked (Node n o k c) -> Forall (fun t => wf t /\ tlinked t) k.
  Proof.
    intros n o k c W L. apply wf_inv in W. destruct W as [W _]. apply kids_linked in L. apply linked_each in L.
    rewrite Forall_forall in *. auto.
  Qed.

  (** Nodes with one text. *)
  Lemma keeps_inner : forall n o k c, wf (Node n o k c) -> tlinked (Node n o k c) -> one_leaf k ->
    keeps (inner s k) (ttexts s (yield (Node n o k c))).
  Proof. intros n o k c W L O. apply keeps_wf; auto. rewrite (inner_leaf _ O). apply keeps_refl. Qed.

  Lemma title_leaf : forall o k c, wf (Node NTitle o k c) -> one_leaf k.
  Proof. intros o k c W. apply wf_inv in W. apply W. Qed.

  Lemma keeps_link : forall k, Forall (fun t => wf t /\ tlinked t) k -> (exists t d, k = [t; d] /\ root NTitle t /\ root NDestination d) ->
    keeps (link_text s k ++ link_dest s k) (Y k).
  Proof.
    intros k F (t & d & -> & (o1 & k1 & c1 & ->) & (o2 & k2 & c2 & ->)). inversion F as [|? ? [W1 L1] F']; subst. inversion F' as [|? ? [W2 L2] _]; subst.
    unfold link_text, link_dest. rewrite child_text_hd. rewrite child_text_tl by discriminate. rewrite child_text_hd. cbn [text_or_empty].
    rewrite !Y_cons. rewrite app_nil_r. apply keeps_app; [|change (Y (@nil tree)) with (@nil char); rewrite ?app_nil_r]; apply keeps_inner; auto; [apply wf_inv in W1; cbn in W1; tauto|apply wf_inv in W2; cbn in W2; tauto].
  Qed.

  Definition wl (t : tree) : Prop := wf t /\ tlinked t.

  Lemma keeps_kids : forall (f : tree -> str) k, Forall wl k -> (forall t, wl t -> In t k -> keeps (f t) (ttexts s (yield t))) -> keeps (flat_map f k) (Y k).
  Proof.
    intros f k F H. induction k as [|t k IH]; [constructor|]. cbn [flat_map]. rewrite Y_cons. inversion F; subst.
    apply keeps_app; [apply H; [assumption|left; reflexivity]|]. apply IH; [assumption|]. intros u U I. apply H; [exact U|right; exact I].
  Qed.
  Lemma flat_map2 : forall A B (f : tree -> list A) (g : A -> list B) k, flat_map g (flat_map f k) = flat_map (fun t => flat_map g (f t)) k.
  Proof. intros A B f g k. induction k as [|t k IH]; [reflexivity|]. cbn [flat_map]. rewrite flat_map_app, IH. reflexivity. Qed.
  Lemma items_in : forall P k t, items P k -> In t k -> match t with Leaf _ => True | Skip _ => False | Node n _ _ _ => P n = true end.
  Proof.
    intros P k. induction k as [|u k IH]; intros t I H; [destruct H|]. destruct H as [->|H].
    - destruct t; cbn in I; intuition.
    - apply IH; [|exact H]. destruct u; cbn in I; intuition.
  Qed.

  Lemma keeps_bold : forall t, wl t -> match t with Leaf _ => True | Skip _ => False | Node n _ _ _ => in_bold n = true end ->
    keeps (flat_map bold_text (bold_of s t)) (ttexts s (yield t)).
  Proof.
    intros [ts|ts|n o k c] [W L] H; [|destruct H|].
    - cbn. rewrite app_nil_r. apply keeps_refl.
    - destruct n; try discriminate H; unfold pars_text; cbn [bold_of par_of head_of flat_map bold_text par_text head_text]; rewrite app_nil_r; apply keeps_inner; auto; destruct (wf_inv _ _ _ _ W) as [_ S1]; cbn in S1; tauto.
  Qed.
  Lemma keeps_par : forall t, wl t -> match t with Leaf _ => True | Skip _ => False | Node n _ _ _ => inline n = true end ->
    keeps (pars_text (par_of s t)) (ttexts s (yield t)).
  Proof.
    intros [ts|ts|n o k c] [W L] H; [|destruct H|].
    - cbn. rewrite app_nil_r. apply keeps_refl.
    - pose proof (kids _ _ _ _ W L) as K. destruct (wf_inv _ _ _ _ W) as [_ S1].
      destruct n; try discriminate H; unfold pars_text; cbn [bold_of par_of head_of flat_map bold_text par_text head_text]; rewrite app_nil_r; try (apply keeps_inner; auto; cbn in S1; tauto).
      + apply keeps_wf; auto. apply keeps_link; [exact K|]. cbn in S1. tauto.
      + apply keeps_wf; auto. rewrite flat_map2. apply keeps_kids; [exact K|]. intros t T I.
        apply keeps_bold; [exact T|]. cbn in S1. destruct S1 as (_ & S1 & _). exact (items_in _ _ _ S1 I).
  Qed.
  Lemma keeps_pars : forall k, Forall wl k -> items inline k -> keeps (pars_text (pars_of s k)) (Y k).
  Proof.
    intros k F I. unfold pars_text, pars_of. rewrite flat_map2. apply keeps_kids; [exact F|]. intros t T J.
    apply (keeps_par t T). exact (items_in _ _ _ I J).
  Qed.
  Lemma keeps_head : forall t, wl t -> match t with Leaf _ => True | Skip _ => False | Node n _ _ _ => in_heading n = true end ->
    keeps (flat_map head_text (head_of s t)) (ttexts s (yield t)).
  Proof.
    intros [ts|ts|n o k c] [W L] H; [|destruct H|].
    - cbn. rewrite app_nil_r. apply keeps_refl.
    - pose proof (kids _ _ _ _ W L) as K. destruct (wf_inv _ _ _ _ W) as [_ S1].
      destruct n; try discriminate H; unfold pars_text; cbn [bold_of par_of head_of flat_map bold_text par_text head_text]; rewrite app_nil_r. apply keeps_wf; auto. apply keeps_link; [exact K|]. cbn in S1. tauto.
  Qed.
  Lemma keeps_image : forall t, wl t -> root NImage t -> keeps (flat_map image_text (image_of s t)) (ttexts s (yield t)).
  Proof.
    intros t [W L] (o & k & c & ->). pose proof (kids _ _ _ _ W L) as K. destruct (wf_inv _ _ _ _ W) as [_ S1].
    cbn [image_of flat_map image_text alt src]. rewrite app_nil_r. apply keeps_wf; auto. apply keeps_link; [exact K|]. cbn in S1. tauto.
  Qed.
  Lemma trim_pars : forall l, keeps (pars_text (trim_trailing_newline_from_text l)) (pars_text l).
  Proof.
    intro l. unfold trim_trailing_newline_from_text. destruct (rev l) as [|p r] eqn:E; [apply keeps_refl|].
    destruct p; try apply keeps_refl. assert (X : l = rev r ++ [PText s0]) by (rewrite <- (rev_involutive l), E; reflexivity).
    pose proof (keeps_trim_end c_nl s0 eq_refl) as T. rewrite X. unfold pars_text at 2. rewrite flat_map_app. cbn [flat_map par_text]. rewrite app_nil_r.
    destruct (trim_end c_nl s0) as [|d y].
    - apply keeps_right; [exact T|apply keeps_refl].
    - cbn [rev]. unfold pars_text. rewrite flat_map_app. cbn [flat_map par_text]. rewrite app_nil_r. apply keeps_app; [apply keeps_refl|exact T].
  Qed.
  Lemma keeps_trimmed : forall t, wl t -> root NParagraph t -> keeps (flat_map pars_text (trimmed s t)) (ttexts s (yield t)).
  Proof.
    intros t [W L] (o & k & c & ->). pose proof (kids _ _ _ _ W L) as K. destruct (wf_inv _ _ _ _ W) as [_ S1]. unfold trimmed. cbn [paragraph_of map flat_map]. rewrite app_nil_r.
    apply keeps_wf; auto. eapply keeps_trans; [apply trim_pars|]. apply keeps_pars; [exact K|]. cbn in S1. tauto.
  Qed.
  Lemma concat_trimmed : forall t, root NParagraph t -> flat_map pars_text (trimmed s t) = pars_text (concat (trimmed s t)).
  Proof. intros t (o & k & c & ->). cbn. rewrite !app_nil_r. reflexivity. Qed.

  (** ** Lists *)

  Definition item_text (it : yitem) : str := match it with YItem t n => pars_text t ++ match n with Some l' => list_text l' | None => [] end end.
  Lemma list_text_eq : forall ty lvl its, list_text (YList ty lvl its) = flat_map item_text its.
  Proof. reflexivity. Qed.

  Lemma keeps_list : forall t, wl t ->
    ((exists lvl, list_at lvl t) -> forall l, keeps (list_text (list_of s l t)) (ttexts s (yield t)))
    /\ (root NListItem t -> forall l, keeps (flat_map item_text (item_of s l t)) (ttexts s (yield t))).
  Proof.
    induction t as [ts|ts|n o k c IH] using tree_ind'; intros [W L].
    - split; [intros (lvl & lk & k & H & _); discriminate|intros (o & k & c & H); discriminate].
    - split; [intros (lvl & lk & k & H & _); discriminate|intros (o & k & c & H); discriminate].
    - pose proof (kids _ _ _ _ W L) as K. destruct (wf_inv _ _ _ _ W) as [_ S1]. rewrite Forall_forall in IH. split.
      + intros (lvl & lk & k' & E & _ & F) l. injection E as -> -> -> ->. rewrite list_of_eq, list_text_eq.
        apply keeps_wf; auto. rewrite flat_map2. apply keeps_kids; [exact K|]. intros t T I.
        apply (proj2 (IH t I T)). rewrite Forall_forall in F. destruct (F t I) as (o' & k & -> & _). eauto using root_node.
      + intros (o' & k' & c' & E) l. injection E as -> -> -> ->. cbn in S1. destruct S1 as (-> & lvl & lk & p & M & R & H).
        unfold item_of. apply keeps_wf; auto. destruct H as [->|(x & -> & X)].
        * inversion K as [|? ? Kp _]; subst. cbn [flat_map item_text]. rewrite !app_nil_r. rewrite <- (concat_trimmed _ R).
          rewrite Y_cons. change (Y (@nil tree)) with (@nil char). rewrite app_nil_r. apply keeps_trimmed; assumption.
        * inversion K as [|? ? Kp K']; subst. inversion K' as [|? ? Kx _]; subst. cbn [flat_map item_text]. rewrite !app_nil_r. rewrite <- (concat_trimmed _ R).
          rewrite !Y_cons. change (Y (@nil tree)) with (@nil char). rewrite app_nil_r. apply keeps_app; [apply keeps_trimmed; assumption|].
          apply (proj1 (IH x (or_intror (or_introl eq_refl)) Kx)). eauto.
  Qed.

  (** ** Blocks *)

  Lemma keeps_one_child : forall n t, n = NModifier \/ n = NIcon \/ n = NMetadata -> wl t -> root n t -> forall r,
    child_text s n (t :: r) = Some (match t with Node _ _ k _ => inner s k | _ => [] end)
    /\ keeps (match t with Node _ _ k _ => inner s k | _ => [] end) (ttexts s (yield t)).
  Proof.
    intros n t N [W L] (o & k & c & ->) r. split; [apply child_text_hd|]. destruct (wf_inv _ _ _ _ W) as [_ S1].
    apply keeps_inner; auto. destruct N as [->|[->| ->]]; cbn in S1; tauto.
  Qed.
  Lemma Y_nil : Y (@nil tree) = []. Proof. reflexivity. Qed.

  Lemma keeps_opt : forall n k, n = NModifier \/ n = NIcon \/ n = NMetadata -> Forall wl k -> opt_root n k -> forall r, child_text s n r = None ->
    keeps (opt_text (child_text s n (k ++ r))) (Y k).
  Proof.
    intros n k N F [->|(t & -> & R)] r E.
    - cbn [app]. rewrite E. constructor.
    - inversion F; subst. destruct (keeps_one_child n t N ltac:(assumption) R r) as [A B]. cbn [app]. rewrite A. rewrite Y_cons, Y_nil, app_nil_r. exact B.
  Qed.
  Lemma or_empty : forall o, text_or_empty o = opt_text o. Proof. intros [x|]; reflexivity. Qed.
  Lemma child_none : forall n k, (forall t, In t k -> ~ root n t) -> child_text s n k = None.
  Proof.
    intros n k H. unfold child_text. assert (X : flat_map (child n) k = []); [|rewrite X; reflexivity].
    induction k as [|t k IH]; [reflexivity|]. cbn [flat_map]. rewrite IH by (intros u U; apply H; right; exact U). rewrite app_nil_r.
    destruct t as [| |m o k' c]; cbn; try reflexivity. destruct (node_eq_dec n m) as [<-|]; [|reflexivity].
    exfalso. apply (H (Node n o k' c)); [left; reflexivity|apply root_node].
  Qed.
  Lemma root_not : forall n m t, n <> m -> root m t -> ~ root n t.
  Proof. intros n m t D (o & k & c & ->) (o' & k' & c' & E). injection E as E _ _ _. congruence. Qed.
  Lemma hl_none : forall n k, hl_body k -> n <> NParagraph -> child_text s n k = None.
  Proof. exact (hl_body_none s). Qed.
  Lemma keeps_hl : forall k, hl_body k -> Forall wl k -> keeps (flat_map pars_text (flat_map (trimmed s) k)) (Y k).
  Proof.
    intros k H. induction H as [|p k R H IH|t p k T R H IH]; intro F; [constructor| |]; inversion F as [|? ? F1 F2]; subst.
    - cbn [flat_map]. rewrite flat_map_app, Y_cons. apply keeps_app; [apply keeps_trimmed; assumption|auto].
    - inversion F2 as [|? ? F3 F4]; subst. cbn [flat_map app]. change (trimmed s (Leaf [t])) with (@nil (list par_node)). cbn [app].
      rewrite Y_cons. apply keeps_left.
      + destruct F1 as [_ L1]. apply drop_tokens; [exact L1|]. repeat constructor. unfold is_terminator in T. dkind.
      + rewrite flat_map_app, Y_cons. apply keeps_app; [apply keeps_trimmed; assumption|auto].
  Qed.
  Lemma trimmed_none : forall n k, opt_root n k -> n <> NParagraph -> flat_map (trimmed s) k = [].
  Proof. intros n k [->|(t & -> & (o & k' & c & ->))] N; [reflexivity|]. cbn. destruct n; try reflexivity. congruence. Qed.
  Lemma inner_none : forall n k, opt_root n k -> inner s k = [].
  Proof. intros n k [->|(t & -> & (o & k' & c & ->))]; reflexivity. Qed.

  Definition docb (d : tree) : list ynode := match d with Node NDocument _ k2 _ => flat_map (blocks s) k2 | _ => [] end.

  Lemma list_kind_dec : forall n, (n = NUnorderedList \/ n = NOrderedList) \/ ~ (n = NUnorderedList \/ n = NOrderedList).
  Proof. intro n. destruct n; auto; right; intros [H|H]; discriminate H. Qed.
  Lemma keeps_blocks : forall t, wl t -> 
    (block t -> keeps (flat_map node_text (blocks s t)) (ttexts s (yield t)))
    /\ (root NDocument t -> keeps (flat_map node_text (docb t)) (ttexts s (yield t))).
  Proof.
    induction t as [ts|ts|n o k c IH] using tree_ind'; intros [W L].
    - split; [|intros (? & ? & ? & H); discriminate]. intros (t & -> & T). cbn [blocks flat_map]. apply drop_tokens; [exact L|]. repeat constructor.
      unfold is_terminator in T. dkind.
    - split; [intros []|intros (? & ? & ? & H); discriminate].
    - pose proof (kids _ _ _ _ W L) as K. destruct (wf_inv _ _ _ _ W) as [_ S1]. rewrite Forall_forall in IH. split.
      + intro B. destruct (list_kind_dec n) as [N|N].
        * assert (X : exists lvl, list_at lvl (Node n o k c)) by (destruct B as [B|B]; [destruct N as [->| ->]; discriminate B|eauto]).
          pose proof (proj1 (keeps_list _ (conj W L)) X 0) as H.
          destruct N as [->| ->]; cbn [blocks flat_map node_text]; rewrite app_nil_r; exact H.
        * assert (B' : simple_block_node n = true) by (destruct B as [B|(lk & k' & E & _)]; [exact B|]; injection E as -> _ _ _; destruct lk; cbn in N; tauto).
          clear B. destruct n; try discriminate B'; cbn [blocks flat_map node_text]; rewrite ?app_nil_r.
          -- (* code *) cbn in S1. destruct S1 as (_ & k1 & b & -> & H). apply keeps_wf; auto. rewrite or_empty. rewrite Y_app. apply Forall_app in K. destruct K as [K1 K2].
             assert (O : opt_root NModifier k1) by (destruct H as [[_ H]|[_ ->]]; [exact H|left; reflexivity]).
             apply keeps_app; [apply (keeps_opt NModifier); auto|].
             eapply keeps_trans; [apply keeps_trim_end; reflexivity|]. unfold inner. rewrite flat_map_app. fold (inner s k1). rewrite (inner_none _ _ O). cbn. rewrite !app_nil_r. apply keeps_refl.
          -- (* collapsible *) cbn in S1. destruct S1 as (_ & _ & k1 & k2 & k3 & -> & O & E3). apply keeps_wf; auto. rewrite or_empty.
             apply Forall_app in K. destruct K as [K1 K2]. inversion K2 as [|? ? K2' K3]; subst.
             assert (D : flat_map (fun d => match d with Node NDocument _ k2 _ => flat_map (blocks s) k2 | _ => [] end) (k1 ++ Node NDocument [] k2 [] :: k3) = flat_map (blocks s) k2).
             { rewrite flat_map_app. cbn [flat_map]. destruct O as [->|(t & -> & (? & ? & ? & ->))]; destruct E3 as [->|(e & -> & _)]; cbn; rewrite ?app_nil_r; reflexivity. }
             rewrite D. rewrite Y_app, Y_cons. apply keeps_app.
             ++ apply (keeps_opt NModifier); auto. apply child_none. intros t [<-|I]; [apply (root_not _ NDocument); [discriminate|apply root_node]|].
                destruct E3 as [->|(e & -> & _)]; [destruct I|]. destruct I as [<-|[]]. intros (? & ? & ? & X). discriminate X.
             ++ apply keeps_right.
                ** destruct E3 as [->|(e & -> & E)]; [constructor|]. rewrite Y_cons, Y_nil, app_nil_r. inversion K3 as [|? ? [_ L3] _]; subst.
                   apply drop_tokens; [exact L3|]. repeat constructor. apply eol_d. exact E.
                ** apply (proj2 (IH (Node NDocument [] k2 []) ltac:(apply in_or_app; right; left; reflexivity) K2')). apply root_node.
          -- (* embed *) cbn in S1. destruct S1 as (_ & _ & a & p & b & -> & P). apply keeps_wf; auto. cbn [leaf_texts flat_map app value_at nth].
             rewrite !Y_cons, Y_nil, app_nil_r. cbn [yield]. apply keeps_app; [apply keeps_refl|]. apply keeps_left; [|apply keeps_refl].
             inversion K as [|? ? _ K']; subst. inversion K' as [|? ? [_ Lp] _]; subst. apply drop_tokens; [exact Lp|]. repeat constructor. unfold is_pipe in P. dkind.
          -- (* heading *) cbn in S1. destruct S1 as (_ & _ & I & _). apply keeps_wf; auto. rewrite flat_map2. apply keeps_kids; [exact K|]. intros t T J.
             apply keeps_head; [exact T|]. exact (items_in _ _ _ I J).
          -- (* highlight *) cbn in S1. destruct S1 as (_ & k1 & k2 & k3 & -> & O2 & H3 & H). apply keeps_wf; auto.
             assert (O1 : opt_root NModifier k1) by (destruct H as [[_ H]|[_ ->]]; [exact H|left; reflexivity]).
             apply Forall_app in K. destruct K as [K1 K2]. apply Forall_app in K2. destruct K2 as [K2 K3]. rewrite !Y_app.
             assert (N1 : child_text s NModifier (k2 ++ k3) = None).
             { destruct O2 as [->|(t & -> & (o2 & q & c2 & ->))]; cbn [app]; [apply hl_none; [exact H3|discriminate]|]. rewrite child_text_tl by discriminate. apply hl_none; [exact H3|discriminate]. }
             assert (N2 : child_text s NIcon (k1 ++ k2 ++ k3) = child_text s NIcon (k2 ++ k3)).
             { destruct O1 as [->|(t & -> & (o2 & q & c2 & ->))]; cbn [app]; [reflexivity|]. apply child_text_tl. discriminate. }
             apply keeps_app; [apply (keeps_opt NModifier); auto|]. rewrite N2.
             apply keeps_app; [apply (keeps_opt NIcon); auto; apply hl_none; [exact H3|discriminate]|].
             rewrite !flat_map_app. rewrite (trimmed_none _ _ O1), (trimmed_none _ _ O2) by discriminate. cbn [app]. apply keeps_hl; assumption.
          -- (* image *) assert (X : flat_map node_text (map YImage (image_of s (Node NImage o k c))) = flat_map image_text (image_of s (Node NImage o k c))) by reflexivity.
             rewrite X. apply keeps_image; [split; assumption|apply root_node].
          -- (* images *) cbn in S1. destruct S1 as (_ & _ & _ & F). apply keeps_wf; auto. rewrite flat_map2. apply keeps_kids; [exact K|]. intros t T I.
             rewrite Forall_forall in F. apply keeps_image; auto.
          -- (* paragraph *) cbn in S1. apply keeps_wf; auto. apply keeps_pars; [exact K|tauto].
          -- (* break *) cbn in S1. destruct S1 as (_ & _ & t & -> & T). apply keeps_wf; auto. rewrite Y_cons, Y_nil, app_nil_r. inversion K as [|? ? [_ Lt] _]; subst.
             apply drop_tokens; [exact Lt|]. repeat constructor. unfold is_dash5 in T. dkind.
      + intros (o' & k' & c' & E). injection E as -> -> -> ->. cbn [docb]. destruct S1 as (-> & -> & F). rewrite Forall_forall in F.
        apply keeps_wf; auto. rewrite flat_map2. apply keeps_kids; [exact K|]. intros t T I. apply (proj1 (IH t I T)). auto.
  Qed.
End Text.

Lemma keeps_top : forall s k, Forall wf k -> top k -> linked s (yields k) -> keeps (doc_text (doc_of s k)) (ttexts s (yields k)).
Proof.
  intros s k W (k1 & d & -> & D & O) L.
  assert (F : Forall (wl s) (k1 ++ [d])).
  { apply linked_each in L. rewrite Forall_forall in *. intros t T. split; auto. }
  apply Forall_app in F. destruct F as [F1 F2]. inversion F2 as [|? ? Fd _]; subst.
  unfold doc_of, doc_text. cbn [metadata body]. rewrite Y_app. apply keeps_app.
  - assert (N : child_text s NMetadata [d] = None) by (apply child_none; intros t [<-|[]]; apply (root_not _ NDocument); [discriminate|exact D]).
    pose proof (keeps_opt s NMetadata k1 ltac:(auto) F1 O [d] N) as K.
    destruct (child_text s NMetadata (k1 ++ [d])) as [x|]; cbn [option_map opt_text] in *; [|exact K].
    eapply keeps_trans; [apply keeps_trim_both; reflexivity|exact K].
  - rewrite Y_cons, Y_nil, app_nil_r. unfold body_of. rewrite flat_map_app.
    assert (E : flat_map (docb s) k1 = []) by (destruct O as [->|(t & -> & (? & ? & ? & ->))]; reflexivity).
    unfold docb in E. rewrite E. cbn [app flat_map]. rewrite app_nil_r. exact (proj2 (keeps_blocks s d Fd) D).
Qed.

Theorem texts_kept : forall s y, deserialize s = Ok y -> keeps (doc_text y) (unescape s).
Proof.
  intros s y H. rewrite deserialize_eq in H. injection H as <-. destruct (fparse_wf (spec_tokens s)) as [W T].
  pose proof (keeps_top s _ W T (fparse_linked s)) as K.
  rewrite (flips_ttexts s _ _ (proj2 (parse_refines s))), spec_texts in K. exact K.
Qed.

Lemma keeps_filter : forall x y, keeps x y -> filter ordinary x = filter ordinary y.
Proof.
  induction 1 as [|c x y H IH|c x y D H IH]; [reflexivity| |].
  - cbn. rewrite IH. reflexivity.
  - cbn. unfold ordinary at 2. rewrite D. exact IH.
Qed.
Lemma keeps_length : forall x y, keeps x y -> length x <= length y.
Proof. induction 1; cbn; lia. Qed.
Lemma unescape_facts : forall n s, length s <= n -> length (unescape s) <= length s /\ filter ordinary (unescape s) = filter ordinary s.
Proof.
  induction n as [|n IH]; intros s L; [destruct s; [split; [apply le_n|reflexivity]|cbn in L; lia]|].
  destruct s as [|c s]; [split; [apply le_n|reflexivity]|]. cbn [unescape]. cbn in L.
  assert (B : ordinary c_bslash = false) by reflexivity.
  destruct (char_eqb c c_bslash) eqn:E.
  - apply char_eqb_eq in E. subst c. destruct s as [|d s]; [split; [cbn; lia|reflexivity]|]. cbn in L.
    destruct (IH s ltac:(lia)) as [A C]. split; [cbn; lia|]. cbn [filter]. rewrite B, C. reflexivity.
  - destruct (IH s ltac:(lia)) as [A C]. split; [cbn; lia|]. cbn [filter]. rewrite C. reflexivity.
Qed.

Theorem ordinary_kept : forall s y, deserialize s = Ok y -> filter ordinary (doc_text y) = filter ordinary s.
Proof. intros s y H. rewrite (keeps_filter _ _ (texts_kept s y H)). apply (unescape_facts (length s)). apply le_n. Qed.
Theorem text_length : forall s y, deserialize s = Ok y -> length (doc_text y) <= length s.
Proof.
  intros s y H. pose proof (keeps_length _ _ (texts_kept s y H)). destruct (unescape_facts (length s) s (le_n _)). lia.
Qed.
