(** The document of a syntax tree, and [to_yamd] on the ops of a tree. *)
From Verif Require Import Base Lexer LexSpec LexProofs LexFacts Ops Parser FParser Refine Refine2 Refine3
  Wf TokFacts StreamSpec StreamProofs Ast ToYamd Api Strict.

(** ** Documents of trees *)

Section Tree.
  Variable s : str.

  (** Text of the leaves directly below a node. *)
  Definition inner (k : list tree) : str :=
    flat_map (fun t => match t with Leaf ts => ttexts s ts | _ => [] end) k.
  (** The child with label [n]. *)
  Definition child (n : node) (t : tree) : list (list tree) :=
    match t with Node m _ k _ => if node_eq_dec n m then [k] else [] | _ => [] end.
  Definition child_text (n : node) (k : list tree) : option str :=
    match flat_map (child n) k with c :: _ => Some (inner c) | [] => None end.
  Definition text_or_empty (o : option str) : str := match o with Some x => x | None => [] end.

  Definition bold_of (t : tree) : list bold_node :=
    match t with
    | Leaf ts => [BText (ttexts s ts)]
    | Node NItalic _ k _ => [BItalic (inner k)]
    | Node NStrikethrough _ k _ => [BStrike (inner k)]
    | _ => []
    end.
  Definition link_text (k : list tree) : str := text_or_empty (child_text NTitle k).
  Definition link_dest (k : list tree) : str := text_or_empty (child_text NDestination k).
  Definition par_of (t : tree) : list par_node :=
    match t with
    | Leaf ts => [PText (ttexts s ts)]
    | Node NItalic _ k _ => [PItalic (inner k)]
    | Node NStrikethrough _ k _ => [PStrike (inner k)]
    | Node NEmphasis _ k _ => [PEmphasis (inner k)]
    | Node NCodeSpan _ k _ => [PCodeSpan (inner k)]
    | Node NBold _ k _ => [PBold (flat_map bold_of k)]
    | Node NAnchor _ k _ => [PAnchor (link_text k) (link_dest k)]
    | _ => []
    end.
  Definition pars_of (k : list tree) : list par_node := flat_map par_of k.
  Definition head_of (t : tree) : list head_node :=
    match t with
    | Leaf ts => [HText (ttexts s ts)]
    | Node NAnchor _ k _ => [HAnchor (link_text k) (link_dest k)]
    | _ => []
    end.
  Definition image_of (t : tree) : list image_node :=
    match t with Node NImage _ k _ => [mk_image (link_text k) (link_dest k)] | _ => [] end.
  Definition paragraph_of (t : tree) : list (list par_node) :=
    match t with Node NParagraph _ k _ => [pars_of k] | _ => [] end.
  Definition trimmed (t : tree) : list (list par_node) := map trim_trailing_newline_from_text (paragraph_of t).
  Definition leaf_texts (k : list tree) : list str :=
    flat_map (fun t => match t with Leaf ts => [ttexts s ts] | _ => [] end) k.

  Definition type_of (n : node) : list_type := match n with NOrderedList => LOrdered | _ => LUnordered end.
  Fixpoint list_of (lvl : nat) (t : tree) : ylist :=
    match t with
    | Node n _ k _ =>
        YList (type_of n) lvl
          (flat_map (fun it =>
             match it with
             | Node NListItem _ (p :: r) _ =>
                 [YItem (concat (trimmed p)) match r with l :: _ => Some (list_of (S lvl) l) | [] => None end]
             | _ => []
             end) k)
    | _ => YList LUnordered lvl []
    end.

  Fixpoint blocks (t : tree) : list ynode :=
    match t with
    | Node NParagraph _ k _ => [YParagraph (pars_of k)]
    | Node NHeading o k _ => [YHeading (count_hashes (ttexts s o)) (flat_map head_of k)]
    | Node NImage _ k _ => map YImage (image_of t)
    | Node NImages _ k _ => [YImages (flat_map image_of k)]
    | Node NCode _ k _ => [YCode (text_or_empty (child_text NModifier k)) (trim_end c_nl (inner k))]
    | Node (NUnorderedList | NOrderedList) _ _ _ => [YListNode (list_of 0 t)]
    | Node NHighlight _ k _ => [YHighlight (child_text NModifier k) (child_text NIcon k) (flat_map trimmed k)]
    | Node NThematicBreak _ _ _ => [YThematicBreak]
    | Node NEmbed _ k _ => [YEmbed (value_at 0 (leaf_texts k)) (value_at 2 (leaf_texts k))]
    | Node NCollapsible _ k _ =>
        [YCollapsible (text_or_empty (child_text NModifier k))
           (flat_map (fun d => match d with Node NDocument _ k2 _ => flat_map blocks k2 | _ => [] end) k)]
    | _ => []
    end.
  Definition body_of (k : list tree) : list ynode :=
    flat_map (fun d => match d with Node NDocument _ k2 _ => flat_map blocks k2 | _ => [] end) k.
  Definition doc_of (k : list tree) : yamd :=
    mk_yamd (option_map (trim_both c_nl) (child_text NMetadata k)) (body_of k).
End Tree.

(** ** The strict machine agrees with the lax one *)

Lemma push_block_ok : forall n st st', push_block n st = Some st' -> push_yamd_node st n = st'.
Proof. intros n [|[] st] st' H; cbn in *; try discriminate; injection H as <-; reflexivity. Qed.

Lemma trim_start_head : forall c x, match trim_start c x with [] => True | d :: _ => char_eqb c d = false end.
Proof. intros c x. induction x as [|d x IH]; cbn; [exact I|]. destruct (char_eqb c d) eqn:E; auto. Qed.
Lemma trim_start_idem : forall c x, trim_start c (trim_start c x) = trim_start c x.
Proof.
  intros c x. pose proof (trim_start_head c x) as H. destruct (trim_start c x) as [|d y]; [reflexivity|].
  cbn. rewrite H. reflexivity.
Qed.
Lemma trim_end_idem : forall c x, trim_end c (trim_end c x) = trim_end c x.
Proof. intros c x. unfold trim_end. rewrite rev_involutive, trim_start_idem. reflexivity. Qed.
Lemma trim_start_snoc : forall c x d, char_eqb c d = false -> trim_start c (x ++ [d]) = trim_start c x ++ [d].
Proof.
  intros c x d H. induction x as [|e x IH]; cbn; [rewrite H; reflexivity|]. destruct (char_eqb c e); auto.
Qed.
Lemma trim_both_idem : forall c x, trim_both c (trim_both c x) = trim_both c x.
Proof.
  intros c x. unfold trim_both. pose proof (trim_start_head c x) as H. destruct (trim_start c x) as [|d y]; [reflexivity|].
  unfold trim_end at 2 3. cbn [rev]. rewrite (trim_start_snoc c (rev y) d H), rev_app_distr. cbn [rev app].
  cbn [trim_start]. rewrite H. unfold trim_end. cbn [rev]. rewrite rev_involutive.
  rewrite (trim_start_snoc c _ d H), rev_app_distr, trim_start_idem. reflexivity.
Qed.

Lemma strict_end_ok : forall n f st st', strict_end n f st = Some st' -> step_end_frame n f st = Ok (Some st').
Proof.
  intros n f st st' H. unfold ok in *.
  destruct n; try discriminate H; destruct f; try discriminate H;
  cbn [strict_end step_end_frame] in *; unfold ok, finish_list, push_into_paragraph;
  try (apply push_block_ok in H; rewrite H; reflexivity);
  try (destruct st as [|[] st]; cbn [push_block push_yamd_node] in *; try discriminate H;
       try (injection H as <-; reflexivity)).
  all: try (apply push_block_ok in H; cbn [push_yamd_node] in H; subst; reflexivity).
  all: repeat match type of H with match ?x with _ => _ end = Some _ => destruct x; try discriminate H end.
  all: try (injection H as <-; reflexivity).
  all: try (apply push_block_ok in H; rewrite H; reflexivity).
Qed.

Lemma as_u8_small : forall n, n <= 6 -> as_u8 n = n.
Proof.
  intros n H. do 7 (destruct n as [|n]; [reflexivity|]). lia.
Qed.

Lemma strict_step_ok : forall s o st st', strict_step s o st = Some st' -> step s o st = Ok (Some st').
Proof.
  intros s [k c] st st' H. unfold strict_step in H. cbn in H. unfold step. cbn.
  destruct (as_str s c) as [x| |] eqn:E; try discriminate. destruct k as [n|n|].
  - unfold step_start. destruct n; unfold strict_start in H; try (cbn in H |- *; injection H as <-; reflexivity).
    unfold extract_heading_level. rewrite E. cbv zeta in H. cbn [bind].
    destruct ((1 <=? count_hashes x) && (count_hashes x <=? 6)) eqn:L; [|discriminate].
    apply andb_true_iff in L. destruct L as [_ L]. apply Nat.leb_le in L. rewrite as_u8_small by exact L.
    injection H as <-. reflexivity.
  - unfold step_end. destruct st as [|f st]; [discriminate|]. apply strict_end_ok. exact H.
  - unfold step_value. rewrite E. cbn [bind]. unfold ok.
    destruct st as [|[] st]; cbn in H; try discriminate; try (injection H as <-; reflexivity);
    match type of H with match ?x with _ => _ end = Some _ => destruct x; try discriminate H end; injection H as <-; reflexivity.
Qed.

Lemma strict_run_ok : forall s l st st', strict_run s l st = Some st' -> run s l st = Ok (Some st').
Proof.
  intros s l. induction l as [|o l IH]; intros st st' H; cbn in *; [injection H as <-; reflexivity|].
  destruct (strict_step s o st) as [st1|] eqn:E; [|discriminate]. rewrite (strict_step_ok _ _ _ _ E). cbn. auto.
Qed.

Lemma strict_ok : forall l s y, strict_to_yamd l s = Some y -> to_yamd l s = Ok y.
Proof.
  intros l s y H. unfold strict_to_yamd in H. destruct (strict_run s l [FYamd None []]) as [st|] eqn:E; [|discriminate].
  apply strict_run_ok in E. unfold to_yamd, try_to_yamd. rewrite E. cbn.
  destruct st as [|[] [|? ?]]; try discriminate. injection H as <-. reflexivity.
Qed.

(** ** Running the ops of a tree *)

Section Run.
  Variable s : str.

  Lemma strict_run_app : forall a b st,
    strict_run s (a ++ b) st = match strict_run s a st with Some st' => strict_run s b st' | None => None end.
  Proof.
    induction a as [|o a IH]; intros b st; cbn; [reflexivity|].
    destruct (strict_step s o st); [apply IH|reflexivity].
  Qed.

  Lemma run_leaf : forall ts st, linked s ts ->
    strict_run s (flatten s (Leaf ts)) st = strict_value (ttexts s ts) st.
  Proof.
    intros ts st L. cbn. unfold strict_step. cbn. rewrite (content_text s ts L).
    destruct (strict_value (ttexts s ts) st); reflexivity.
  Qed.

  Lemma run_node : forall n o k c st, linked s (o ++ yields k ++ c) ->
    strict_run s (flatten s (Node n o k c)) st =
    match strict_start n (ttexts s o) st with
    | Some st1 => match strict_run s (flattens s k) st1 with Some (f :: r) => strict_end n f r | _ => None end
    | None => None
    end.
  Proof.
    intros n o k c st L. apply linked_app in L. destruct L as [Lo L]. apply linked_app in L. destruct L as [_ Lc].
    cbn [flatten strict_run]. unfold strict_step at 1. cbn. rewrite (content_text s o Lo).
    destruct (strict_start n (ttexts s o) st) as [st1|]; [|reflexivity].
    fold (flattens s k). rewrite strict_run_app. destruct (strict_run s (flattens s k) st1) as [[|f r]|]; cbn.
    - unfold strict_step. cbn. rewrite (content_text s c Lc). reflexivity.
    - unfold strict_step. cbn. rewrite (content_text s c Lc). destruct (strict_end n f r); reflexivity.
    - reflexivity.
  Qed.

  Lemma run_one : forall k st, linked s (yields k) -> one_leaf k ->
    strict_run s (flattens s k) st = strict_value (inner s k) st.
  Proof.
    intros k st L (b & ->). cbn in L. rewrite app_nil_r in L. unfold flattens. cbn [flat_map]. rewrite app_nil_r, (run_leaf b st L).
    cbn. rewrite app_nil_r. reflexivity.
  Qed.

  Lemma linked_kids : forall o k c, linked s (o ++ yields k ++ c) -> linked s (yields k).
  Proof. intros o k c L. apply linked_app in L. destruct L as [_ L]. apply linked_app in L. apply L. Qed.

  Lemma linked_cons : forall t k, linked s (yields (t :: k)) -> linked s (yield t) /\ linked s (yields k).
  Proof. intros t k L. cbn in L. apply linked_app in L. exact L. Qed.

  (** Nodes with just text inside. *)
  Ltac text_node := match goal with
    | L : linked s (?o ++ yields ?k ++ ?c), Sh : _ /\ one_leaf ?k /\ _ |- _ =>
      destruct Sh as (_ & Sh & _); rewrite (run_node _ o k c _ L); cbn [strict_start from_node];
      rewrite (run_one k _ (linked_kids _ _ _ L) Sh); cbn [strict_value strict_end]; reflexivity end.

  Lemma child_text_hd : forall n o k c r, child_text s n (Node n o k c :: r) = Some (inner s k).
  Proof. intros. unfold child_text. cbn [flat_map child]. destruct (node_eq_dec n n); [reflexivity|congruence]. Qed.
  Lemma child_text_tl : forall n m o k c r, n <> m -> child_text s n (Node m o k c :: r) = child_text s n r.
  Proof. intros. unfold child_text. cbn [flat_map child]. destruct (node_eq_dec n m); [congruence|reflexivity]. Qed.
  Lemma child_text_leaf : forall n ts r, child_text s n (Leaf ts :: r) = child_text s n r.
  Proof. reflexivity. Qed.

  (** Title and destination. *)
  Lemma run_link : forall k (mk : str -> str -> frame) st,
    Forall wf k -> linked s (yields k) -> (exists t d, k = [t; d] /\ root NTitle t /\ root NDestination d) ->
    (forall x, strict_end NTitle (FTitle x) (mk [] [] :: st) = Some (mk x [] :: st)) ->
    (forall x y, strict_end NDestination (FDestination y) (mk x [] :: st) = Some (mk x y :: st)) ->
    strict_run s (flattens s k) (mk [] [] :: st) = Some (mk (link_text s k) (link_dest s k) :: st).
  Proof.
    intros k mk st W L (t & d & -> & (o1 & k1 & c1 & ->) & (o2 & k2 & c2 & ->)) H1 H2.
    inversion W as [|? ? W1 W']; subst. inversion W' as [|? ? W2 _]; subst.
    inversion W1 as [| |? ? ? ? _ S1]; subst. inversion W2 as [| |? ? ? ? _ S2]; subst.
    apply linked_cons in L. destruct L as [L1 L]. apply linked_cons in L. destruct L as [L2 _].
    unfold link_text, link_dest. rewrite child_text_hd, child_text_tl, child_text_hd by discriminate. cbn [text_or_empty].
    unfold flattens. cbn [flat_map]. rewrite strict_run_app, app_nil_r.
    cbn in L1, L2. fold (yields k1) in L1. fold (yields k2) in L2.
    destruct S1 as (_ & S1 & _). destruct S2 as (_ & S2 & _).
    rewrite (run_node _ o1 k1 c1 _ L1). cbn [strict_start from_node]. rewrite (run_one k1 _ (linked_kids _ _ _ L1) S1).
    cbn [strict_value]. rewrite H1.
    rewrite (run_node _ o2 k2 c2 _ L2). cbn [strict_start from_node]. rewrite (run_one k2 _ (linked_kids _ _ _ L2) S2).
    cbn [strict_value]. rewrite H2. reflexivity.
  Qed.

  (** Children of bold. *)
  Lemma run_bold : forall k b st, Forall wf k -> linked s (yields k) -> items in_bold k ->
    strict_run s (flattens s k) (FBold b :: st) = Some (FBold (b ++ flat_map (bold_of s) k) :: st).
  Proof.
    induction k as [|t k IH]; intros b st W L I.
    { cbn. rewrite app_nil_r. reflexivity. }
    inversion W as [|? ? Wt Wk]; subst. apply linked_cons in L. destruct L as [Lt Lk].
    change (flattens s (t :: k)) with (flatten s t ++ flattens s k). rewrite strict_run_app.
    assert (G : strict_run s (flatten s t) (FBold b :: st) = Some (FBold (b ++ bold_of s t) :: st) /\ items in_bold k).
    { destruct t as [ts|ts|n o k' c]; cbn [items] in I.
      - destruct I as (_ & _ & I). rewrite (run_leaf ts _ Lt). auto.
      - contradiction.
      - destruct I as [P I]. split; [|exact I]. inversion Wt as [| |? ? ? ? _ Sh]; subst. cbn in Lt. fold (yields k') in Lt.
        destruct n; try discriminate; cbn [shape bold_of] in *; text_node. }
    destruct G as [-> I']. rewrite IH by assumption. cbn [flat_map]. rewrite app_assoc. reflexivity.
  Qed.

  (** Children of a paragraph. *)
  Lemma run_pars : forall k b st, Forall wf k -> linked s (yields k) -> items inline k ->
    strict_run s (flattens s k) (FParagraph b :: st) = Some (FParagraph (b ++ pars_of s k) :: st).
  Proof.
    induction k as [|t k IH]; intros b st W L I.
    { cbn. rewrite app_nil_r. reflexivity. }
    inversion W as [|? ? Wt Wk]; subst. apply linked_cons in L. destruct L as [Lt Lk].
    change (flattens s (t :: k)) with (flatten s t ++ flattens s k). rewrite strict_run_app.
    assert (G : strict_run s (flatten s t) (FParagraph b :: st) = Some (FParagraph (b ++ par_of s t) :: st) /\ items inline k).
    { destruct t as [ts|ts|n o k' c]; cbn [items] in I.
      - destruct I as (_ & _ & I). rewrite (run_leaf ts _ Lt). auto.
      - contradiction.
      - destruct I as [P I]. split; [|exact I]. inversion Wt as [| |? ? ? ? Wk' Sh]; subst. cbn in Lt. fold (yields k') in Lt.
        destruct n; try discriminate; cbn [shape par_of] in *; try text_node.
        + destruct Sh as (_ & _ & Sh). rewrite (run_node _ o k' c _ Lt). cbn [strict_start from_node].
          rewrite (run_link k' FAnchor _ Wk' (linked_kids _ _ _ Lt) Sh) by reflexivity. reflexivity.
        + destruct Sh as (_ & Sh & _). rewrite (run_node _ o k' c _ Lt). cbn [strict_start from_node].
          rewrite (run_bold k' [] _ Wk' (linked_kids _ _ _ Lt) Sh). reflexivity. }
    destruct G as [-> I']. rewrite IH by assumption. unfold pars_of. cbn [flat_map]. rewrite app_assoc. reflexivity.
  Qed.

  Lemma run_heads : forall k l b st, Forall wf k -> linked s (yields k) -> items in_heading k ->
    strict_run s (flattens s k) (FHeading l b :: st) = Some (FHeading l (b ++ flat_map (head_of s) k) :: st).
  Proof.
    induction k as [|t k IH]; intros l b st W L I.
    { cbn. rewrite app_nil_r. reflexivity. }
    inversion W as [|? ? Wt Wk]; subst. apply linked_cons in L. destruct L as [Lt Lk].
    change (flattens s (t :: k)) with (flatten s t ++ flattens s k). rewrite strict_run_app.
    assert (G : strict_run s (flatten s t) (FHeading l b :: st) = Some (FHeading l (b ++ head_of s t) :: st) /\ items in_heading k).
    { destruct t as [ts|ts|n o k' c]; cbn [items] in I.
      - destruct I as (_ & _ & I). rewrite (run_leaf ts _ Lt). auto.
      - contradiction.
      - destruct I as [P I]. split; [|exact I]. inversion Wt as [| |? ? ? ? Wk' Sh]; subst. cbn in Lt. fold (yields k') in Lt.
        destruct n; try discriminate; cbn [shape head_of] in *.
        destruct Sh as (_ & _ & Sh). rewrite (run_node _ o k' c _ Lt). cbn [strict_start from_node].
        rewrite (run_link k' FAnchor _ Wk' (linked_kids _ _ _ Lt) Sh) by reflexivity. reflexivity. }
    destruct G as [-> I']. rewrite IH by assumption. cbn [flat_map]. rewrite app_assoc. reflexivity.
  Qed.

  (** Images. *)
  Lemma run_image : forall t, wf t -> linked s (yield t) -> root NImage t -> forall st,
    exists i, image_of s t = [i] /\
    strict_run s (flatten s t) st = strict_end NImage (FImage (alt i) (src i)) st.
  Proof.
    intros t W L (o & k & c & ->) st. cbn [image_of]. eexists. split; [reflexivity|]. cbn [alt src].
    inversion W as [| |? ? ? ? Wk Sh]; subst. cbn in L. fold (yields k) in L. destruct Sh as (_ & _ & _ & Sh).
    rewrite (run_node _ o k c _ L). cbn [strict_start from_node].
    rewrite (run_link k FImage _ Wk (linked_kids _ _ _ L) Sh) by reflexivity. reflexivity.
  Qed.

  Lemma run_images : forall k l st, Forall wf k -> linked s (yields k) -> Forall (root NImage) k ->
    strict_run s (flattens s k) (FImages l :: st) = Some (FImages (l ++ flat_map (image_of s) k) :: st).
  Proof.
    induction k as [|t k IH]; intros l st W L R.
    { cbn. rewrite app_nil_r. reflexivity. }
    inversion W as [|? ? Wt Wk]; subst. inversion R as [|? ? Rt Rk]; subst. apply linked_cons in L. destruct L as [Lt Lk].
    change (flattens s (t :: k)) with (flatten s t ++ flattens s k). rewrite strict_run_app.
    destruct (run_image t Wt Lt Rt (FImages l :: st)) as (i & E1 & E2). rewrite E2. cbn [strict_end].
    rewrite IH by assumption. cbn [flat_map]. rewrite E1, <- app_assoc. destruct i; reflexivity.
  Qed.

  (** A paragraph, in any context. *)
  Lemma run_paragraph : forall t, wf t -> linked s (yield t) -> root NParagraph t -> forall st,
    exists b, paragraph_of s t = [b] /\ strict_run s (flatten s t) st = strict_end NParagraph (FParagraph b) st.
  Proof.
    intros t W L (o & k & c & ->) st. exists (pars_of s k). split; [reflexivity|].
    inversion W as [| |? ? ? ? Wk Sh]; subst. cbn in L. fold (yields k) in L. destruct Sh as (_ & _ & Sh & _).
    rewrite (run_node _ o k c _ L). cbn [strict_start from_node].
    rewrite (run_pars k [] _ Wk (linked_kids _ _ _ L) Sh). reflexivity.
  Qed.

  (** A modifier or icon, in any context. *)
  Lemma run_modifier : forall o k c st, wf (Node NModifier o k c) -> linked s (yield (Node NModifier o k c)) ->
    strict_run s (flatten s (Node NModifier o k c)) st = strict_end NModifier (FModifier (inner s k)) st.
  Proof.
    intros o k c st W L. inversion W as [| |? ? ? ? Wk Sh]; subst. cbn in L. fold (yields k) in L.
    destruct Sh as (_ & Sh & _). rewrite (run_node _ o k c _ L). cbn [strict_start from_node].
    rewrite (run_one k _ (linked_kids _ _ _ L) Sh). reflexivity.
  Qed.
  Lemma run_icon : forall o k c st, wf (Node NIcon o k c) -> linked s (yield (Node NIcon o k c)) ->
    strict_run s (flatten s (Node NIcon o k c)) st = strict_end NIcon (FIcon (inner s k)) st.
  Proof.
    intros o k c st W L. inversion W as [| |? ? ? ? Wk Sh]; subst. cbn in L. fold (yields k) in L.
    destruct Sh as (_ & Sh & _). rewrite (run_node _ o k c _ L). cbn [strict_start from_node].
    rewrite (run_one k _ (linked_kids _ _ _ L) Sh). reflexivity.
  Qed.

  Lemma run_hl_body : forall k t i ps st, hl_body k -> Forall wf k -> linked s (yields k) ->
    strict_run s (flattens s k) (FHighlight t i ps :: st) = Some (FHighlight t i (ps ++ flat_map (trimmed s) k) :: st).
  Proof.
    intros k t i ps st H. revert ps. induction H as [|p k R H IH|a p k Ht R H IH]; intros ps W L.
    - cbn. rewrite app_nil_r. reflexivity.
    - inversion W as [|? ? Wp Wk]; subst. apply linked_cons in L. destruct L as [Lp Lk].
      change (flattens s (p :: k)) with (flatten s p ++ flattens s k). rewrite strict_run_app.
      destruct (run_paragraph p Wp Lp R (FHighlight t i ps :: st)) as (b & E1 & ->). cbn [strict_end].
      rewrite IH by assumption. cbn [flat_map]. unfold trimmed at 2. rewrite E1, <- app_assoc. reflexivity.
    - inversion W as [|? ? _ W']; subst. inversion W' as [|? ? Wp Wk]; subst. apply linked_cons in L. destruct L as [La L].
      apply linked_cons in L. destruct L as [Lp Lk].
      change (flattens s (Leaf [a] :: p :: k)) with (flatten s (Leaf [a]) ++ flatten s p ++ flattens s k).
      rewrite strict_run_app, (run_leaf [a] _ La). cbn [strict_value]. rewrite strict_run_app.
      destruct (run_paragraph p Wp Lp R (FHighlight t i ps :: st)) as (b & E1 & ->). cbn [strict_end].
      rewrite IH by assumption.
      change (flat_map (trimmed s) (Leaf [a] :: p :: k)) with (trimmed s p ++ flat_map (trimmed s) k).
      unfold trimmed at 2. rewrite E1, <- app_assoc. reflexivity.
  Qed.

  Lemma hl_body_none : forall n k, hl_body k -> n <> NParagraph -> child_text s n k = None.
  Proof.
    intros n k H N. induction H as [|p k (o & k' & c & ->) H IH|a p k Ht (o & k' & c & ->) H IH]; [reflexivity| |].
    - rewrite child_text_tl by exact N. exact IH.
    - rewrite child_text_leaf, child_text_tl by exact N. exact IH.
  Qed.

  (** ** Lists *)

  Definition lframe (ty : list_type) (lvl : nat) (its : list yitem) : frame :=
    match ty with LUnordered => FUnorderedList lvl its | LOrdered => FOrderedList lvl its end.
  Definition lnode (ty : list_type) : node := match ty with LUnordered => NUnorderedList | LOrdered => NOrderedList end.
  Definition finish (l : ylist) (st : stack) : option stack :=
    match l with YList ty lvl its => strict_end (lnode ty) (lframe ty lvl its) st end.
  Definition item_of (lvl : nat) (it : tree) : list yitem :=
    match it with
    | Node NListItem _ (p :: r) _ =>
        [YItem (concat (trimmed s p)) match r with l :: _ => Some (list_of s (S lvl) l) | [] => None end]
    | _ => []
    end.
  Lemma list_of_eq : forall lvl n o k c, list_of s lvl (Node n o k c) = YList (type_of n) lvl (flat_map (item_of lvl) k).
  Proof. reflexivity. Qed.

  Lemma lframe_depth : forall ty lvl its st, count_list_depth (lframe ty lvl its :: st) = S (count_list_depth st).
  Proof. intros [] lvl its st; reflexivity. Qed.

  Definition list_run (t : tree) : Prop :=
    match t with
    | Node NUnorderedList _ _ _ | Node NOrderedList _ _ _ =>
        forall lvl st, count_list_depth st = lvl -> strict_run s (flatten s t) st = finish (list_of s lvl t) st
    | Node NListItem _ _ _ =>
        forall ty lvl its st, count_list_depth st = lvl ->
        strict_run s (flatten s t) (lframe ty lvl its :: st) = Some (lframe ty lvl (its ++ item_of lvl t) :: st)
    | _ => True
    end.

  Lemma run_items : forall k, Forall list_run k -> (exists lvl lk, Forall (item_at lvl lk) k) -> forall ty lvl its st,
    count_list_depth st = lvl ->
    strict_run s (flattens s k) (lframe ty lvl its :: st) = Some (lframe ty lvl (its ++ flat_map (item_of lvl) k) :: st).
  Proof.
    induction k as [|t k IH]; intros F (l0 & lk & I) ty lvl its st D.
    { cbn. rewrite app_nil_r. reflexivity. }
    inversion F as [|? ? Ft Fk]; subst. inversion I as [|? ? It Ik]; subst.
    change (flattens s (t :: k)) with (flatten s t ++ flattens s k). rewrite strict_run_app.
    destruct It as (o & k' & -> & _). cbn [list_run] in Ft. rewrite (Ft ty _ its st eq_refl).
    rewrite (IH Fk (ex_intro _ l0 (ex_intro _ lk Ik)) ty _ _ st eq_refl). cbn [flat_map]. rewrite app_assoc. reflexivity.
  Qed.

  Lemma list_kind_root : forall lvl t, list_at lvl t -> exists ty k, t = Node (lnode ty) [] k [].
  Proof. intros lvl t (lk & k & -> & _). destruct lk; [exists LUnordered|exists LOrdered]; cbn; eauto. Qed.

  Lemma run_list : forall t, wf t -> linked s (yield t) -> list_run t.
  Proof.
    induction t as [ts|ts|n o k c IH] using tree_ind'; intros W L; try exact I.
    inversion W as [| |? ? ? ? Wk Sh]; subst. cbn in L. fold (yields k) in L.
    assert (F : Forall list_run k).
    { apply linked_kids in L. clear - IH Wk L. induction k as [|t k IHk]; [constructor|].
      inversion IH; subst. inversion Wk; subst. apply linked_cons in L. destruct L. constructor; auto. }
    destruct n; try exact I; cbn [list_run].
    - (* item *) intros ty lvl its st D. destruct Sh as (_ & l0 & lk & p & M & R & H).
      rewrite (run_node _ o k c _ L). cbn [strict_start from_node].
      apply linked_kids in L.
      assert (Kp : wf p /\ linked s (yield p)).
      { destruct H as [->|(x & -> & _)]; inversion Wk; subst; apply linked_cons in L; destruct L; auto. }
      destruct Kp as [Wp Lp]. destruct (run_paragraph p Wp Lp R (FListItem [] None :: lframe ty lvl its :: st)) as (b & E1 & E2).
      assert (E3 : concat (trimmed s p) = trim_trailing_newline_from_text b) by (unfold trimmed; rewrite E1; apply app_nil_r).
      destruct H as [->|(x & -> & Lx)]; cbn [item_of]; unfold flattens; cbn [flat_map]; rewrite strict_run_app, E2; cbn [strict_end].
      + cbn [strict_run]. rewrite E3. destruct ty; reflexivity.
      + rewrite app_nil_r. inversion F as [|? ? _ F']; subst. inversion F' as [|? ? Fx _]; subst.
        destruct (list_kind_root _ _ Lx) as (ty' & kx & ->).
        assert (Fx' : strict_run s (flatten s (Node (lnode ty') [] kx [])) (FListItem (trim_trailing_newline_from_text b) None :: lframe ty (count_list_depth st) its :: st)
          = finish (list_of s (S (count_list_depth st)) (Node (lnode ty') [] kx [])) (FListItem (trim_trailing_newline_from_text b) None :: lframe ty (count_list_depth st) its :: st)).
        { destruct ty'; apply Fx; destruct ty; reflexivity. }
        rewrite Fx', list_of_eq. rewrite E3. unfold finish. destruct ty', ty; reflexivity.
    - (* ordered *) intros lvl st D. destruct Sh as (_ & _ & _ & l0 & Sh). rewrite (run_node _ o k c _ L). cbn [strict_start]. rewrite D.
      change (FOrderedList lvl []) with (lframe LOrdered lvl []). rewrite (run_items k F (ex_intro _ l0 (ex_intro _ _ Sh)) LOrdered lvl [] st D). reflexivity.
    - intros lvl st D. destruct Sh as (_ & _ & _ & l0 & Sh). rewrite (run_node _ o k c _ L). cbn [strict_start]. rewrite D.
      change (FUnorderedList lvl []) with (lframe LUnordered lvl []). rewrite (run_items k F (ex_intro _ l0 (ex_intro _ _ Sh)) LUnordered lvl [] st D). reflexivity.
  Qed.

  (** ** Blocks *)

  Lemma count_hashes_repeat : forall l, count_hashes (repeat c_hash l ++ [c_space]) = l.
  Proof. induction l as [|l IH]; [reflexivity|]. cbn. rewrite IH. reflexivity. Qed.

  Lemma heading_level : forall o, linked s o -> two is_hash is_space_1 o -> 1 <= count_hashes (ttexts s o) <= 6.
  Proof.
    intros o [F _] (t & u & -> & Et & Eu). inversion F as [|? ? Ft F']; subst. inversion F' as [|? ? Fu _]; subst.
    destruct (x_hash s t Ft Et) as (l & Hl & X). cbn. rewrite X, (x_space_1 s u Fu Eu), app_nil_r.
    rewrite count_hashes_repeat. exact Hl.
  Qed.

  Definition block_run (t : tree) : Prop :=
    match t with
    | Node NDocument _ k _ =>
        forall st, count_list_depth st = 0 ->
        strict_run s (flatten s t) st = strict_end NDocument (FDocument (flat_map (blocks s) k)) st
    | _ => block t -> forall b st, count_list_depth st = 0 ->
        strict_run s (flatten s t) (FDocument b :: st) = Some (FDocument (b ++ blocks s t) :: st)
    end.

  Lemma run_blocks : forall k, Forall block_run k -> Forall block k -> forall b st, count_list_depth st = 0 ->
    strict_run s (flattens s k) (FDocument b :: st) = Some (FDocument (b ++ flat_map (blocks s) k) :: st).
  Proof.
    induction k as [|t k IH]; intros F B b st D.
    { cbn. rewrite app_nil_r. reflexivity. }
    inversion F as [|? ? Ft Fk]; subst. inversion B as [|? ? Bt Bk]; subst.
    change (flattens s (t :: k)) with (flatten s t ++ flattens s k). rewrite strict_run_app.
    assert (G : strict_run s (flatten s t) (FDocument b :: st) = Some (FDocument (b ++ blocks s t) :: st)).
    { destruct t as [ts|ts|n o k' c]; cbn [block_run] in Ft; auto. destruct n; auto.
      destruct Bt as [Bt|(lk & kk & Bt & _)]; [discriminate|destruct lk; discriminate]. }
    rewrite G, IH by assumption. cbn [flat_map]. rewrite app_assoc. reflexivity.
  Qed.

  Lemma run_block : forall t, wf t -> linked s (yield t) -> block_run t.
  Proof.
    induction t as [ts|ts|n o k c IH] using tree_ind'; intros W L.
    - intros B b st D. rewrite (run_leaf ts _ L). cbn. rewrite app_nil_r. reflexivity.
    - intros [].
    - pose proof W as W0. pose proof L as L0. inversion W as [| |? ? ? ? Wk Sh]; subst. cbn in L. fold (yields k) in L.
      assert (F : Forall block_run k).
      { apply linked_kids in L. clear - IH Wk L. induction k as [|t k IHk]; [constructor|].
        inversion IH; subst. inversion Wk; subst. apply linked_cons in L. destruct L. constructor; auto. }
      pose proof (linked_kids _ _ _ L) as Lk.
      destruct n;
      try (intros [B|(lk & kk & B & _)]; [discriminate B|destruct lk; discriminate B]).
      + (* code *) intros _ b st D. destruct Sh as (_ & k1 & x & -> & H). rewrite (run_node _ o _ c _ L). cbn [strict_start from_node].
        unfold flattens. rewrite flat_map_app, strict_run_app. unfold yields in Lk. rewrite flat_map_app in Lk. apply linked_app in Lk. destruct Lk as [L1 L2].
        fold (yields k1) in L1. cbn in L2. rewrite app_nil_r in L2.
        assert (G : exists y, strict_run s (flattens s k1) (FCode [] [] :: FDocument b :: st) = Some (FCode y [] :: FDocument b :: st)
                    /\ text_or_empty (child_text s NModifier (k1 ++ [Leaf x])) = y /\ inner s (k1 ++ [Leaf x]) = ttexts s x).
        { assert (O : opt_root NModifier k1) by (destruct H as [[_ H]|[_ ->]]; [exact H|left; reflexivity]).
          destruct O as [->|(m & -> & (o' & k' & c' & ->))].
          - exists []. cbn. rewrite app_nil_r. auto.
          - exists (inner s k'). cbn [app]. rewrite child_text_hd. apply linked_cons in L1. destruct L1 as [L1 _].
            apply Forall_app in Wk. destruct Wk as [Wk _]. inversion Wk; subst.
            unfold flattens. cbn [flat_map]. rewrite app_nil_r, run_modifier by assumption. cbn. rewrite app_nil_r. auto. }
        destruct G as (y & G1 & G2 & G3). fold (flattens s k1). rewrite G1. cbn [flat_map]. rewrite app_nil_r, (run_leaf x _ L2).
        cbn [strict_value strict_end]. cbn [blocks]. rewrite G2, G3. unfold code_new. rewrite trim_end_idem. reflexivity.
      + (* collapsible *) intros _ b st D. destruct Sh as (_ & _ & k1 & k2 & k3 & -> & O & H3). rewrite (run_node _ o _ c _ L). cbn [strict_start from_node].
        unfold flattens. rewrite !flat_map_app, !strict_run_app. unfold yields in Lk. rewrite !flat_map_app in Lk. apply linked_app in Lk. destruct Lk as [L1 L2].
        apply linked_app in L2. destruct L2 as [L2 _]. fold (yields k1) in L1. cbn in L2. rewrite !app_nil_r in L2.
        apply Forall_app in F. destruct F as [_ F]. inversion F as [|? ? Fd _]; subst. cbn [block_run] in Fd.
        assert (G : exists y, strict_run s (flattens s k1) (FCollapsible [] [] :: FDocument b :: st) = Some (FCollapsible y [] :: FDocument b :: st)
                    /\ text_or_empty (child_text s NModifier (k1 ++ [Node NDocument [] k2 []] ++ k3)) = y
                    /\ body_of s (k1 ++ [Node NDocument [] k2 []] ++ k3) = flat_map (blocks s) k2).
        { assert (N3 : child_text s NModifier ([Node NDocument [] k2 []] ++ k3) = None).
          { cbn [app]. rewrite child_text_tl by discriminate. destruct H3 as [->|(e & -> & _)]; reflexivity. }
          assert (B3 : body_of s ([Node NDocument [] k2 []] ++ k3) = flat_map (blocks s) k2).
          { unfold body_of. cbn [app flat_map]. destruct H3 as [->|(e & -> & _)]; cbn; rewrite app_nil_r; reflexivity. }
          destruct O as [->|(m & -> & (o' & k' & c' & ->))].
          - exists []. cbn [app]. cbn [app] in N3, B3. rewrite N3, B3. auto.
          - exists (inner s k'). cbn [app]. rewrite child_text_hd. apply linked_cons in L1. destruct L1 as [L1 _].
            inversion Wk as [|? ? Wm _]; subst.
            unfold flattens. cbn [flat_map]. rewrite app_nil_r, run_modifier by assumption. cbn [strict_end]. split; [reflexivity|].
            split; [reflexivity|]. unfold body_of in *. cbn [app flat_map] in *. exact B3. }
        destruct G as (y & G1 & G2 & G3). fold (flattens s k1). rewrite G1. rewrite strict_run_app. cbn [flat_map]. rewrite app_nil_r, Fd by exact D. cbn [strict_end].
        assert (R3 : forall st', strict_run s (flat_map (flatten s) k3) st' = Some st').
        { intros st'. destruct H3 as [->|(e & -> & _)]; reflexivity. }
        rewrite R3. cbn [strict_end push_block]. cbn [blocks]. fold (body_of s (k1 ++ [Node NDocument [] k2 []] ++ k3)). rewrite G2, G3. reflexivity.
      + (* document *) intros st D. destruct Sh as (_ & _ & B). rewrite (run_node _ o k c _ L). cbn [strict_start from_node].
        rewrite (run_blocks k F B [] st D). reflexivity.
      + (* embed *) intros _ b st D. destruct Sh as (_ & _ & a & p & x & -> & _). rewrite (run_node _ o _ c _ L). cbn [strict_start from_node].
        apply linked_cons in Lk. destruct Lk as [L1 Lk]. apply linked_cons in Lk. destruct Lk as [L2 Lk]. apply linked_cons in Lk. destruct Lk as [L3 _].
        unfold flattens. cbn [flat_map]. rewrite app_nil_r, strict_run_app, (run_leaf a _ L1). cbn [strict_value].
        rewrite strict_run_app, (run_leaf [p] _ L2). cbn [strict_value]. rewrite (run_leaf x _ L3). reflexivity.
      + (* heading *) intros _ b st D. destruct Sh as (H1 & _ & H2 & _). rewrite (run_node _ o k c _ L).
        apply linked_app in L. destruct L as [Lo _]. pose proof (heading_level o Lo H1) as [A1 A2]. unfold strict_start.
        apply Nat.leb_le in A1. apply Nat.leb_le in A2. rewrite A1, A2. cbn [andb].
        rewrite (run_heads k _ [] _ Wk Lk H2). reflexivity.
      + (* highlight *) intros _ b st D. destruct Sh as (_ & k1 & k2 & k3 & -> & O2 & H3 & H). rewrite (run_node _ o _ c _ L). cbn [strict_start from_node].
        unfold flattens. rewrite !flat_map_app, !strict_run_app. unfold yields in Lk. rewrite !flat_map_app in Lk. apply linked_app in Lk. destruct Lk as [L1 L2].
        apply linked_app in L2. destruct L2 as [L2 L3]. fold (yields k1) in L1. fold (yields k2) in L2. fold (yields k3) in L3.
        fold (flattens s k1). fold (flattens s k2). fold (flattens s k3).
        apply Forall_app in Wk. destruct Wk as [W1 Wk]. apply Forall_app in Wk. destruct Wk as [W2 W3].
        assert (O1 : opt_root NModifier k1) by (destruct H as [[_ H]|[_ ->]]; [exact H|left; reflexivity]). clear H.
        assert (G1 : strict_run s (flattens s k1) (FHighlight None None [] :: FDocument b :: st)
          = Some (FHighlight (child_text s NModifier (k1 ++ k2 ++ k3)) None [] :: FDocument b :: st)
          /\ child_text s NIcon (k1 ++ k2 ++ k3) = child_text s NIcon (k2 ++ k3) /\ flat_map (trimmed s) k1 = []).
        { destruct O1 as [->|(m & -> & (o' & k' & c' & ->))].
          - cbn [app flattens flat_map strict_run]. split; [|auto]. repeat f_equal.
            destruct O2 as [->|(m & -> & (o' & k' & c' & ->))]; cbn [app]; [|rewrite child_text_tl by discriminate];
              rewrite hl_body_none by (assumption || discriminate); reflexivity.
          - cbn [app]. rewrite child_text_hd, child_text_tl by discriminate. apply linked_cons in L1. destruct L1 as [L1 _]. inversion W1; subst.
            unfold flattens. cbn [flat_map]. rewrite app_nil_r, run_modifier by assumption. auto. }
        destruct G1 as (G1 & G2 & G3). rewrite G1, strict_run_app.
        set (ti := child_text s NModifier (k1 ++ k2 ++ k3)) in *.
        assert (G4 : strict_run s (flattens s k2) (FHighlight ti None [] :: FDocument b :: st)
          = Some (FHighlight ti (child_text s NIcon (k2 ++ k3)) [] :: FDocument b :: st) /\ flat_map (trimmed s) k2 = []).
        { destruct O2 as [->|(m & -> & (o' & k' & c' & ->))].
          - cbn [app]. rewrite hl_body_none by (assumption || discriminate). auto.
          - cbn [app]. rewrite child_text_hd. apply linked_cons in L2. destruct L2 as [L2 _]. inversion W2; subst.
            unfold flattens. cbn [flat_map]. rewrite app_nil_r, run_icon by assumption. auto. }
        destruct G4 as (G4 & G5). rewrite G4, run_hl_body by assumption. cbn [strict_end push_block]. cbn [blocks].
        fold ti. rewrite G2. rewrite !flat_map_app, G3, G5. reflexivity.
      + (* image *) intros _ b st D. destruct (run_image _ W0 L0 (root_node _ _ _ _) (FDocument b :: st)) as (i & E1 & ->).
        cbn [blocks]. rewrite E1. destruct i. reflexivity.
      + (* images *) intros _ b st D. destruct Sh as (_ & _ & _ & R). rewrite (run_node _ o k c _ L). cbn [strict_start from_node].
        rewrite (run_images k [] _ Wk Lk R). reflexivity.
      + (* ordered *) intros _ b st D. pose proof (run_list _ W0 L0) as R. cbn [list_run] in R. rewrite (R 0 (FDocument b :: st) D). reflexivity.
      + (* paragraph *) intros _ b st D. destruct (run_paragraph _ W0 L0 (root_node _ _ _ _) (FDocument b :: st)) as (p & E1 & ->).
        cbn in E1. injection E1 as <-. reflexivity.
      + (* thematic break *) intros _ b st D. destruct Sh as (_ & _ & t & -> & _). rewrite (run_node _ o _ c _ L). cbn [strict_start from_node].
        apply linked_cons in Lk. destruct Lk as [L1 _]. unfold flattens. cbn [flat_map]. rewrite app_nil_r, (run_leaf [t] _ L1). reflexivity.
      + (* unordered *) intros _ b st D. pose proof (run_list _ W0 L0) as R. cbn [list_run] in R. rewrite (R 0 (FDocument b :: st) D). reflexivity.
  Qed.

  Lemma run_top : forall k, Forall wf k -> top k -> linked s (yields k) ->
    strict_to_yamd (flattens s k) s = Some (doc_of s k).
  Proof.
    intros k W (k1 & d & -> & (o & kd & c & ->) & O) L. unfold strict_to_yamd.
    rewrite yields_app in L. apply linked_app in L. destruct L as [L1 L2]. apply linked_cons in L2. destruct L2 as [L2 _].
    apply Forall_app in W. destruct W as [W1 W2]. inversion W2 as [|? ? Wd _]; subst.
    unfold flattens. rewrite flat_map_app. fold (flattens s k1). rewrite strict_run_app. cbn [flat_map]. rewrite app_nil_r.
    pose proof (run_block _ Wd L2) as R. cbn [block_run] in R.
    destruct O as [->|(m & -> & (o' & k' & c' & ->))].
    - cbn [flattens flat_map strict_run app]. rewrite R by reflexivity. cbn. unfold doc_of, body_of. cbn. rewrite app_nil_r. reflexivity.
    - apply linked_cons in L1. destruct L1 as [L1 _]. cbn in L1. fold (yields k') in L1.
      inversion W1 as [|? ? Wm _]; subst. inversion Wm as [| |? ? ? ? _ Sh]; subst. destruct Sh as (_ & Sh & _).
      unfold flattens. cbn [flat_map]. rewrite app_nil_r, (run_node _ o' k' c' _ L1). cbn [strict_start from_node].
      rewrite (run_one k' _ (linked_kids _ _ _ L1) Sh). cbn [strict_value strict_end]. rewrite R by reflexivity. cbn [strict_end].
      unfold doc_of, body_of, yamd_new. cbn [app]. rewrite child_text_hd. cbn [option_map flat_map]. rewrite app_nil_r, trim_both_idem. reflexivity.
  Qed.
End Run.

(** ** The whole pipeline *)

Definition document_of (s : str) : yamd := doc_of s (fparse (spec_tokens s)).

Lemma strict_parse : forall s ops, parse s = Ok ops -> strict_to_yamd ops s = Some (document_of s).
Proof.
  intros s ops H. destruct (parse_refines s) as [E _]. rewrite E in H. injection H as <-.
  destruct (fparse_wf (spec_tokens s)) as [W T]. apply run_top; [exact W|exact T|apply fparse_linked].
Qed.

Lemma deserialize_eq : forall s, deserialize s = Ok (document_of s).
Proof.
  intros s. unfold deserialize. destruct (parse_refines s) as [E _]. rewrite E. cbn [bind].
  apply strict_ok. apply strict_parse. exact E.
Qed.
