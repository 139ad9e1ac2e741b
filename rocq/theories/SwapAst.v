(** Rewriting ordinary text commutes with building and displaying documents. *)
From Coq Require Import String.
From Verif Require Import Base Lexer LexSpec LexProofs LexFacts Ops Parser FParser Refine3 TokFacts StreamProofs Ast ToYamd Api ShapeSpec Shapes Swap.

Section SwapAst.
  Variable g : char -> str.
  Hypothesis RW : rewording g.
  Hypothesis SL : same_lines g.
  Notation G := (flat_map g).

  Lemma kept : forall c, syntax c = true -> g c = [c].
  Proof. intros c S. destruct (N.eq_dec c c_nl) as [->|N]; [exact SL|]. apply (keep g RW); assumption. Qed.
  Lemma g_cons : forall c, exists d a, g c = d :: a.
  Proof. intros c. pose proof (g_nonempty g RW [] c (or_introl SL)). destruct (g c); [congruence|eauto]. Qed.
  Lemma G_nil : forall x, G x = [] -> x = [].
  Proof. intros [|c x] H; [reflexivity|]. cbn in H. destruct (g_cons c) as (d & a & E). rewrite E in H. discriminate. Qed.
  Lemma G_kept : forall x, forallb syntax x = true -> G x = x.
  Proof. intros x. induction x as [|c x IH]; intros H; [reflexivity|]. cbn in *. apply andb_true_iff in H. destruct H as [H1 H2]. rewrite (kept c H1), (IH H2). reflexivity. Qed.

  (** ** Trimming *)

  (** A syntax character in [G x] comes from [x]. *)
  Lemma g_other : forall c d, syntax c = true -> char_eqb c d = false -> Forall (fun e => char_eqb c e = false) (g d).
  Proof.
    intros c d S E. destruct (syntax d) eqn:Sd; [rewrite (kept d Sd); auto|]. pose proof (change_all g RW d Sd) as F. eapply Forall_impl; [|exact F].
    cbn. intros e He. destruct (char_eqb c e) eqn:X; [|reflexivity]. apply char_eqb_eq in X. congruence.
  Qed.
  Lemma trim_start_G : forall c x, syntax c = true -> trim_start c (G x) = G (trim_start c x).
  Proof.
    intros c x S. induction x as [|d x IH]; [reflexivity|]. cbn [flat_map trim_start]. destruct (char_eqb c d) eqn:E.
    - apply char_eqb_eq in E. subst d. rewrite (kept c S). cbn. rewrite char_eqb_refl. exact IH.
    - pose proof (g_other c d S E) as F. destruct (g_cons d) as (e & a & Ed). cbn [flat_map]. rewrite Ed in *. inversion F as [|? ? H _]; subst. cbn. rewrite H. reflexivity.
  Qed.
  Lemma trim_end_snoc : forall c x d, trim_end c (x ++ [d]) = if char_eqb c d then trim_end c x else x ++ [d].
  Proof.
    intros c x d. unfold trim_end. rewrite rev_app_distr. cbn. destruct (char_eqb c d); [reflexivity|]. cbn. rewrite rev_involutive. reflexivity.
  Qed.
  Lemma trim_end_G : forall c x, syntax c = true -> trim_end c (G x) = G (trim_end c x).
  Proof.
    intros c x S. induction x as [|d x IH] using rev_ind; [reflexivity|]. rewrite trim_end_snoc, flat_map_app. cbn [flat_map]. rewrite app_nil_r. destruct (char_eqb c d) eqn:E.
    - apply char_eqb_eq in E. subst d. rewrite (kept c S), trim_end_snoc, char_eqb_refl. exact IH.
    - pose proof (g_other c d S E) as F. rewrite flat_map_app. cbn [flat_map]. rewrite app_nil_r. destruct (g_cons d) as (e & a & Ed).
      assert (N : g d <> []) by (rewrite Ed; discriminate). destruct (exists_last N) as (y & z & Ey). rewrite Ey in *. apply Forall_app in F. destruct F as [_ F]. inversion F as [|? ? Hz _]; subst.
      rewrite app_assoc, trim_end_snoc, Hz. reflexivity.
  Qed.
  Lemma trim_both_G : forall c x, syntax c = true -> trim_both c (G x) = G (trim_both c x).
  Proof. intros c x S. unfold trim_both. rewrite trim_start_G, trim_end_G by exact S. reflexivity. Qed.
  Lemma count_hashes_G : forall x, count_hashes (G x) = count_hashes x.
  Proof.
    intros x. induction x as [|d x IH]; [reflexivity|]. cbn [flat_map count_hashes]. destruct (char_eqb d c_hash) eqn:E.
    - apply char_eqb_eq in E. subst d. rewrite (kept c_hash eq_refl). cbn. rewrite IH. reflexivity.
    - assert (E' : char_eqb c_hash d = false) by (unfold char_eqb in *; rewrite N.eqb_sym; exact E). pose proof (g_other c_hash d eq_refl E') as F. destruct (g_cons d) as (e & a & Ed). rewrite Ed in *.
      inversion F as [|? ? H _]; subst. cbn [app count_hashes]. unfold char_eqb in *. rewrite N.eqb_sym, H. reflexivity.
  Qed.
  Lemma trim_text_G : forall b, trim_trailing_newline_from_text (map (reword_par g) b) = map (reword_par g) (trim_trailing_newline_from_text b).
  Proof.
    intros b. unfold trim_trailing_newline_from_text. rewrite <- map_rev. destruct (rev b) as [|[] r]; try reflexivity. cbn [map reword_par]. unfold reword. rewrite trim_end_G by reflexivity.
    destruct (trim_end c_nl s) as [|c x] eqn:E; [cbn [flat_map]; rewrite map_rev; reflexivity|]. destruct (G (c :: x)) as [|d y] eqn:E2; [apply G_nil in E2; discriminate|].
    rewrite map_rev. cbn [map reword_par]. unfold reword. rewrite E2. reflexivity.
  Qed.

  (** ** Building *)

  Definition rframe (f : frame) : frame :=
    match f with
    | FYamd m b => FYamd (option_map (reword g) m) (map (reword_node g) b)
    | FDocument b => FDocument (map (reword_node g) b)
    | FHeading l b => FHeading l (map (reword_head g) b)
    | FParagraph b => FParagraph (map (reword_par g) b)
    | FBold b => FBold (map (reword_bold g) b)
    | FItalic t => FItalic (G t)
    | FStrikethrough t => FStrikethrough (G t)
    | FCodeSpan t => FCodeSpan (G t)
    | FEmphasis t => FEmphasis (G t)
    | FAnchor t u => FAnchor (G t) (G u)
    | FTitle t => FTitle (G t)
    | FDestination t => FDestination (G t)
    | FImage a s => FImage (G a) (G s)
    | FImages l => FImages (map (reword_image g) l)
    | FCode l c => FCode (G l) (G c)
    | FModifier t => FModifier (G t)
    | FEmbed vs => FEmbed (map G vs)
    | FThematicBreak => FThematicBreak
    | FHighlight t i ps => FHighlight (option_map (reword g) t) (option_map (reword g) i) (map (map (reword_par g)) ps)
    | FIcon t => FIcon (G t)
    | FCollapsible t b => FCollapsible (G t) (map (reword_node g) b)
    | FUnorderedList l its => FUnorderedList l (map (reword_item g) its)
    | FOrderedList l its => FOrderedList l (map (reword_item g) its)
    | FListItem t n => FListItem (map (reword_par g) t) (option_map (reword_list g) n)
    | FMetadata t => FMetadata (G t)
    end.
  Definition rres (r : step_result) : step_result :=
    match r with Ok (Some st) => Ok (Some (map rframe st)) | x => x end.

  Lemma depth_G : forall st, count_list_depth (map rframe st) = count_list_depth st.
  Proof. intros st. unfold count_list_depth. induction st as [|f st IH]; [reflexivity|]. cbn. destruct f; cbn; rewrite ?IH; reflexivity. Qed.
  Lemma value_at_G : forall i vs, value_at i (map G vs) = G (value_at i vs).
  Proof. intros i vs. unfold value_at. change (@nil char) with (G []) at 1. apply map_nth. Qed.
  Lemma push_node_G : forall st n, push_yamd_node (map rframe st) (reword_node g n) = map rframe (push_yamd_node st n).
  Proof. intros [|[] st] n; try reflexivity. cbn. rewrite map_app. reflexivity. Qed.
  Lemma push_par_G : forall st n, push_into_paragraph (map rframe st) (reword_par g n) = map rframe (push_into_paragraph st n).
  Proof. intros [|[] st] n; try reflexivity. cbn. rewrite map_app. reflexivity. Qed.
  Lemma step_end_G : forall n f st, step_end_frame n (rframe f) (map rframe st) = rres (step_end_frame n f st).
  Proof.
    intros n f st. destruct n, f; try reflexivity; cbn [step_end_frame rframe]; unfold ok, err.
    all: try (match goal with
      | |- context [PCodeSpan (G ?x)] => change (PCodeSpan (G x)) with (reword_par g (PCodeSpan x))
      | |- context [PEmphasis (G ?x)] => change (PEmphasis (G x)) with (reword_par g (PEmphasis x))
      | |- context [PBold (map _ ?x)] => change (PBold (map (reword_bold g) x)) with (reword_par g (PBold x))
      end; rewrite push_par_G; reflexivity).
    all: try (rewrite ?value_at_G;
      match goal with
      | |- context [YEmbed (G ?a) (G ?b)] => change (YEmbed (G a) (G b)) with (reword_node g (YEmbed a b))
      | |- context [YHeading ?l (map (reword_head g) ?b)] => change (YHeading l (map (reword_head g) b)) with (reword_node g (YHeading l b))
      | |- context [YImages (map (reword_image g) ?b)] => change (YImages (map (reword_image g) b)) with (reword_node g (YImages b))
      | |- context [YHighlight (option_map _ ?t) (option_map _ ?i) (map _ ?b)] => change (YHighlight (option_map (reword g) t) (option_map (reword g) i) (map (map (reword_par g)) b)) with (reword_node g (YHighlight t i b))
      | |- context [YCollapsible (G ?t) (map _ ?b)] => change (YCollapsible (G t) (map (reword_node g) b)) with (reword_node g (YCollapsible t b))
      | |- context [push_yamd_node _ YThematicBreak] => change YThematicBreak with (reword_node g YThematicBreak)
      end; rewrite push_node_G; reflexivity).
    all: try (unfold code_new; rewrite !trim_end_G by reflexivity; match goal with |- context [YCode (G ?a) (G ?b)] => change (YCode (G a) (G b)) with (reword_node g (YCode a b)) end; rewrite push_node_G; reflexivity).
    all: destruct st as [|[] st]; cbn; unfold ok, reword; rewrite ?map_app, ?trim_both_G, ?trim_text_G by reflexivity; try reflexivity.
    all: cbn; rewrite ?map_app; cbn; unfold reword; try reflexivity.
    all: try (match goal with |- context [option_map _ ?x] => destruct x end; reflexivity).
  Qed.
  Lemma step_value_G : forall s c c' x st, as_str s c = Ok x -> as_str (G s) c' = Ok (G x) -> step_value (G s) c' (map rframe st) = rres (step_value s c st).
  Proof.
    intros s c c' x st H H'. unfold step_value. rewrite H, H'. cbn [bind]. destruct st as [|[] st]; cbn; unfold ok, reword; rewrite ?map_app, ?flat_map_app; reflexivity.
  Qed.
  Definition twin_op (s : str) (o o' : op) : Prop :=
    op_kind_of o = op_kind_of o' /\ exists x, as_str s (op_content o) = Ok x /\ as_str (G s) (op_content o') = Ok (G x).
  Lemma step_G : forall s o o' st, twin_op s o o' -> step (G s) o' (map rframe st) = rres (step s o st).
  Proof.
    intros s o o' st (K & x & H & H'). unfold step. rewrite <- K. destruct (op_kind_of o) as [n|n|].
    - destruct n; try reflexivity; cbn [step_start]; unfold extract_heading_level; rewrite ?H, ?H', ?depth_G; cbn [bind]; rewrite ?count_hashes_G; reflexivity.
    - unfold step_end. destruct st as [|f st]; [reflexivity|]. cbn [map]. apply step_end_G.
    - eapply step_value_G; eauto.
  Qed.
  Lemma run_G : forall s os os' st, Forall2 (twin_op s) os os' -> run (G s) os' (map rframe st) = rres (run s os st).
  Proof.
    intros s os os' st F. revert st. induction F as [|o o' os os' H F IH]; intros st; [reflexivity|]. cbn [run]. rewrite (step_G s o o' st H).
    destruct (step s o st) as [[st'|]| |]; cbn; try reflexivity. apply IH.
  Qed.
  Lemma swap_document : forall s d, deserialize s = Ok d -> deserialize (G s) = Ok (reword_yamd g d).
  Proof.
    intros s d H. unfold deserialize in *. destruct (parse_refines s) as [P _]. destruct (parse_refines (G s)) as [P' _]. rewrite P in H. rewrite P'. cbn [bind] in *.
    pose proof (swap_ops g RW s _ _ (or_introl SL) P P') as F. unfold to_yamd, try_to_yamd in *.
    change [FYamd None []] with (map rframe [FYamd None []]). rewrite (run_G s _ _ [FYamd None []] F). destruct (run s _ [FYamd None []]) as [[st|]| |]; try discriminate H. cbn [bind rres] in *.
    destruct st as [|[] st]; try discriminate H. cbn in *. injection H as <-. unfold yamd_new, reword_yamd. cbn. destruct metadata; cbn; [|reflexivity]. unfold reword. rewrite trim_both_G by reflexivity. reflexivity.
  Qed.

  (** ** Displaying *)

  Lemma starts_with_G : forall p x, forallb syntax p = true -> starts_with p (G x) = starts_with p x.
  Proof.
    intros p. induction p as [|c p IH]; intros x S; [reflexivity|]. cbn in S. apply andb_true_iff in S. destruct S as [S1 S2]. destruct x as [|d x]; [reflexivity|].
    cbn [starts_with flat_map]. destruct (char_eqb c d) eqn:E.
    - apply char_eqb_eq in E. subst d. rewrite (kept c S1). cbn. rewrite char_eqb_refl. apply IH. exact S2.
    - pose proof (g_other c d S1 E) as F. destruct (g_cons d) as (e & a & Ed). rewrite Ed in *. inversion F as [|? ? H _]; subst. cbn. rewrite H. reflexivity.
  Qed.
  Lemma starts_syntax : forall p x, forallb syntax p = true -> starts_with p x = true -> forallb syntax (firstn (length p) x) = true.
  Proof.
    intros p. induction p as [|c p IH]; intros x S H; [reflexivity|]. cbn in S. apply andb_true_iff in S. destruct S as [S1 S2]. destruct x as [|d x]; [discriminate|].
    cbn in *. apply andb_true_iff in H. destruct H as [H1 H2]. apply char_eqb_eq in H1. subst d. rewrite S1. cbn. apply IH; assumption.
  Qed.
  Lemma replace_go_ordinary : forall pat rep a x, pat <> [] -> forallb syntax pat = true -> Forall (fun d => syntax d = false) a -> replace_go pat rep 0 (a ++ x) = a ++ replace_go pat rep 0 x.
  Proof.
    intros pat rep a x N S F. induction F as [|d a Sd F IH]; [reflexivity|]. cbn [app]. cbn [replace_go].
    assert (X : starts_with pat (d :: a ++ x) = false).
    { destruct pat as [|c p]; [congruence|]. cbn in *. apply andb_true_iff in S. destruct S as [S _]. destruct (char_eqb c d) eqn:E; [|reflexivity]. apply char_eqb_eq in E. congruence. }
    rewrite X, IH. reflexivity.
  Qed.
  Lemma replace_go_G : forall pat rep x k, pat <> [] -> forallb syntax pat = true -> forallb syntax rep = true -> forallb syntax (firstn k x) = true ->
    replace_go pat rep k (G x) = G (replace_go pat rep k x).
  Proof.
    intros pat rep x k N S R. revert k. induction x as [|c x IH]; intros k K; [reflexivity|]. destruct k as [|k].
    - cbn [replace_go]. destruct (syntax c) eqn:Sc.
      + assert (E : G (c :: x) = c :: G x) by (cbn; rewrite (kept c Sc); reflexivity). rewrite E. cbn [replace_go].
        assert (X : starts_with pat (c :: G x) = starts_with pat (c :: x)) by (rewrite <- E; apply starts_with_G; exact S). rewrite X. destruct (starts_with pat (c :: x)) eqn:W.
        * rewrite flat_map_app, (G_kept rep R). f_equal. apply IH. pose proof (starts_syntax pat (c :: x) S W) as Y. destruct pat as [|p0 p]; [congruence|]. cbn in *. rewrite Nat.sub_0_r.
          apply andb_true_iff in Y. apply Y.
        * cbn [flat_map]. rewrite (kept c Sc). cbn. f_equal. apply IH. reflexivity.
      + assert (W : starts_with pat (c :: x) = false).
        { destruct pat as [|p0 p]; [congruence|]. cbn in *. apply andb_true_iff in S. destruct S as [S _]. destruct (char_eqb p0 c) eqn:E; [|reflexivity]. apply char_eqb_eq in E. congruence. }
        rewrite W. cbn [flat_map]. rewrite (replace_go_ordinary pat rep _ _ N S (change_all g RW c Sc)). f_equal. apply IH. reflexivity.
    - cbn in K. apply andb_true_iff in K. destruct K as [K1 K2]. cbn [flat_map]. rewrite (kept c K1). cbn [app replace_go]. apply IH. exact K2.
  Qed.
  Lemma replace_G : forall pat rep x, pat <> [] -> forallb syntax pat = true -> forallb syntax rep = true -> replace pat rep (G x) = G (replace pat rep x).
  Proof. intros. apply replace_go_G; auto. Qed.
  Lemma esc_G : forall c x, syntax c = true -> esc_char c (G x) = G (esc_char c x).
  Proof. intros c x S. unfold esc_char. apply replace_G; [discriminate| |]; cbn; rewrite S; reflexivity. Qed.

  Ltac esc := rewrite ?esc_G by reflexivity; rewrite ?replace_G by (discriminate || reflexivity).
  Lemma lit_G : forall x a b, forallb syntax x = true -> G a = b -> G (x ++ a) = x ++ b.
  Proof. intros x a b S E. rewrite flat_map_app, (G_kept x S), E. reflexivity. Qed.
  Lemma mid_G : forall x a b, G a = b -> G (x ++ a) = G x ++ b.
  Proof. intros x a b E. rewrite flat_map_app, E. reflexivity. Qed.
  Ltac walk := symmetry; repeat first [apply lit_G; [reflexivity|] | apply mid_G | apply G_kept; reflexivity | reflexivity].

  Lemma anchor_G : forall t u, display_anchor (G t) (G u) = G (display_anchor t u).
  Proof. intros. unfold display_anchor. repeat (progress esc). walk. Qed.
  Lemma italic_G : forall t, display_italic (G t) = G (display_italic t). Proof. intros. unfold display_italic. repeat (progress esc). walk. Qed.
  Lemma strike_G : forall t, display_strike (G t) = G (display_strike t). Proof. intros. unfold display_strike. repeat (progress esc). walk. Qed.
  Lemma emphasis_G : forall t, display_emphasis (G t) = G (display_emphasis t). Proof. intros. unfold display_emphasis. repeat (progress esc). walk. Qed.
  Lemma code_span_G : forall t, display_code_span (G t) = G (display_code_span t).
  Proof.
    intros [|c t]; [reflexivity|]. unfold display_code_span. destruct (G (c :: t)) as [|d x] eqn:E; [apply G_nil in E; discriminate|]. rewrite <- E. repeat (progress esc). walk.
  Qed.
  Lemma bold_node_G : forall b, display_bold_node (reword_bold g b) = G (display_bold_node b).
  Proof. intros []; cbn; unfold reword; [apply italic_G|apply strike_G|]. repeat (progress esc). reflexivity. Qed.
  Lemma flat_map_G : forall A (f f' : A -> str) (r : A -> A) l, (forall x, f' (r x) = G (f x)) -> flat_map f' (map r l) = G (flat_map f l).
  Proof. intros A f f' r l H. induction l as [|x l IH]; [reflexivity|]. cbn. rewrite flat_map_app, H, IH. reflexivity. Qed.
  Lemma bold_G : forall b, display_bold (map (reword_bold g) b) = G (display_bold b).
  Proof.
    intros b. unfold display_bold. assert (E : bold_has_content (map (reword_bold g) b) = bold_has_content b).
    { unfold bold_has_content. induction b as [|x b IH]; [reflexivity|]. cbn [map existsb]. rewrite IH. f_equal. destruct x as [| |[|c t]]; try reflexivity. cbn [reword_bold]. unfold reword. destruct (G (c :: t)) eqn:E; [apply G_nil in E; discriminate|reflexivity]. }
    rewrite E. destruct (bold_has_content b); [|reflexivity]. rewrite (flat_map_G _ (fun b => replace (s_ "**") (c_bslash :: s_ "**") (display_bold_node b))).
    - walk.
    - intros x. rewrite bold_node_G. esc. reflexivity.
  Qed.
  Lemma par_node_G : forall n, display_par_node (reword_par g n) = G (display_par_node n).
  Proof.
    intros []; cbn [reword_par display_par_node]; unfold reword; auto using anchor_G, bold_G, italic_G, strike_G, code_span_G, emphasis_G.
    unfold display_text. repeat (progress esc). reflexivity.
  Qed.
  Lemma paragraph_G : forall b, display_paragraph (map (reword_par g) b) = G (display_paragraph b).
  Proof. intros b. apply flat_map_G. apply par_node_G. Qed.
  Lemma marker_G : forall x, escape_leading_block_marker (G x) = G (escape_leading_block_marker x).
  Proof.
    intros x. unfold escape_leading_block_marker. rewrite !starts_with_G by reflexivity. destruct (starts_with (s_ "- ") x || _ || _ || _ || _); [|reflexivity]. cbn. rewrite (kept c_bslash eq_refl). reflexivity.
  Qed.
  Lemma heading_G : forall l b, display_heading l (map (reword_head g) b) = G (display_heading l b).
  Proof.
    intros l b. unfold display_heading. rewrite (flat_map_G _ display_head_node).
    - symmetry. apply lit_G; [|apply lit_G; reflexivity]. unfold repeat_char. induction l; [reflexivity|]. cbn [repeat forallb]. rewrite IHl. reflexivity.
    - intros []; cbn; unfold reword; [repeat (progress esc); reflexivity|apply anchor_G].
  Qed.
  Lemma image_G : forall i, display_image (reword_image g i) = G (display_image i).
  Proof. intros [a s]. unfold display_image. cbn [reword_image alt src]. unfold reword. repeat (progress esc). walk. Qed.
  Lemma join_G : forall sep l, forallb syntax sep = true -> join sep (map G l) = G (join sep l).
  Proof.
    intros sep l S. induction l as [|x l IH]; [reflexivity|]. destruct l as [|y l]; [reflexivity|].
    change (join sep (map G (x :: y :: l))) with (G x ++ sep ++ join sep (map G (y :: l))). rewrite IH. change (join sep (x :: y :: l)) with (x ++ sep ++ join sep (y :: l)).
    rewrite !flat_map_app, (G_kept sep S). reflexivity.
  Qed.
  Lemma join_map_G : forall A sep (f f' : A -> str) (r : A -> A) l, forallb syntax sep = true -> (forall x, In x l -> f' (r x) = G (f x)) -> join sep (map f' (map r l)) = G (join sep (map f l)).
  Proof.
    intros A sep f f' r l S H. rewrite <- (join_G sep _ S), !map_map. f_equal. apply map_ext_in. exact H.
  Qed.
  Lemma code_G : forall l c, display_code (G l) (G c) = G (display_code l c).
  Proof. intros. unfold display_code. repeat (progress esc). walk. Qed.
  Lemma embed_G : forall l c, display_embed (G l) (G c) = G (display_embed l c).
  Proof. intros. unfold display_embed. repeat (progress esc). walk. Qed.
  Lemma highlight_G : forall t i b, display_highlight (option_map (reword g) t) (option_map (reword g) i) (map (map (reword_par g)) b) = G (display_highlight t i b).
  Proof.
    intros t i b. unfold display_highlight. cbv zeta.
    rewrite (join_map_G _ nlnl (fun p => escape_leading_block_marker (replace (s_ "!!") (c_bslash :: s_ "!!") (display_paragraph p)))); [|reflexivity|].
    - assert (T : match option_map (reword g) t with None => [] | Some t => (s_ " " ++ esc_char c_bslash t)%list end = G match t with None => [] | Some t => (s_ " " ++ esc_char c_bslash t)%list end).
      { destruct t; [|reflexivity]. cbn [option_map]. unfold reword. esc. walk. }
      assert (I : match option_map (reword g) i with None => [] | Some t => (s_ "! " ++ esc_char c_bslash t ++ nl)%list end = G match i with None => [] | Some t => (s_ "! " ++ esc_char c_bslash t ++ nl)%list end).
      { destruct i; [|reflexivity]. cbn [option_map]. unfold reword. esc. walk. }
      rewrite T, I. walk.
    - intros p _. rewrite paragraph_G. esc. apply marker_G.
  Qed.
  Lemma list_G : forall l, display_list (reword_list g l) = G (display_list l).
  Proof.
    fix IH 1. intros [ty level items]. cbn [reword_list display_list]. cbv zeta.
    assert (Sm : forallb syntax (display_list_type ty) = true) by (destruct ty; reflexivity).
    set (m := display_list_type ty) in *.
    assert (H : forall its, map (fun it => (repeat_char c_space level ++ m ++ s_ " " ++ replace (nl ++ m ++ s_ " ") (nl ++ [c_bslash] ++ m ++ s_ " ") (display_item it))%list) (map (reword_item g) its)
              = map G (map (fun it => (repeat_char c_space level ++ m ++ s_ " " ++ replace (nl ++ m ++ s_ " ") (nl ++ [c_bslash] ++ m ++ s_ " ") (display_item it))%list) its)).
    { fix IHi 1. intros [|it its]; [reflexivity|]. cbn [map]. rewrite (IHi its). f_equal. clear IHi.
      assert (E : display_item (reword_item g it) = G (display_item it)).
      { destruct it as [text [l|]].
        - change (display_item (reword_item g (YItem text (Some l)))) with (flat_map display_par_node (map (reword_par g) text) ++ nl ++ display_list (reword_list g l))%list. rewrite (flat_map_G _ display_par_node) by apply par_node_G. rewrite (IH l). symmetry. apply mid_G. apply lit_G; reflexivity.
        - apply flat_map_G. apply par_node_G. }
      rewrite E. rewrite replace_G.
      - symmetry. apply lit_G; [unfold repeat_char; clear; induction level; [reflexivity|]; cbn [repeat forallb]; rewrite IHlevel; reflexivity|]. apply lit_G; [exact Sm|]. apply lit_G; reflexivity.
      - discriminate.
      - rewrite !forallb_app, Sm. reflexivity.
      - rewrite !forallb_app, Sm. reflexivity. }
    rewrite H. apply join_G. reflexivity.
  Qed.
  Lemma node_G : forall n, display_node (reword_node g n) = G (display_node n).
  Proof.
    fix IH 1. intros [b|l b|i|l|l c|l|t i b| |k a|t b]; cbn [reword_node display_node].
    - apply paragraph_G.
    - apply heading_G.
    - apply image_G.
    - apply join_map_G; [reflexivity|]. intros x _. apply image_G.
    - apply code_G.
    - apply list_G.
    - apply highlight_G.
    - symmetry. apply G_kept. reflexivity.
    - apply embed_G.
    - assert (H : forall b, map (fun m => match m with YParagraph p => escape_leading_block_marker (display_paragraph p) | _ => display_node m end) (map (reword_node g) b)
                = map G (map (fun m => match m with YParagraph p => escape_leading_block_marker (display_paragraph p) | _ => display_node m end) b)).
      { fix IHb 1. intros [|n b']; [reflexivity|]. cbn [map]. rewrite (IHb b'). f_equal. clear IHb. pose proof (IH n) as E. destruct n; try exact E. cbn [reword_node]. rewrite paragraph_G. apply marker_G. }
      rewrite H, join_G by reflexivity. unfold reword. repeat (progress esc). walk.
  Qed.
  Lemma block_G : forall n, display_block (reword_node g n) = G (display_block n).
  Proof. intros n. pose proof (node_G n) as E. destruct n; try exact E. cbn [reword_node display_block]. rewrite paragraph_G. apply marker_G. Qed.
  Lemma body_G : forall b, display_body (map (reword_node g) b) = G (display_body b).
  Proof. intros b. apply join_map_G; [reflexivity|]. intros x _. apply block_G. Qed.
  Lemma ends_nl_G : forall x, ends_with_char c_nl (G x) = ends_with_char c_nl x.
  Proof.
    intros x. induction x as [|d x _] using rev_ind; [reflexivity|]. unfold ends_with_char. rewrite flat_map_app. cbn [flat_map]. rewrite app_nil_r, !rev_app_distr. cbn [rev app].
    destruct (char_eqb c_nl d) eqn:E.
    - apply char_eqb_eq in E. subst d. rewrite (kept c_nl eq_refl). reflexivity.
    - pose proof (g_other c_nl d eq_refl E) as F. apply Forall_rev in F. destruct (g_cons d) as (e & a & Ed). destruct (rev (g d)) as [|z y] eqn:Z.
      + apply (f_equal (@rev _)) in Z. rewrite rev_involutive, Ed in Z. discriminate.
      + inversion F; subst. assumption.
  Qed.
  Lemma swap_display : forall y, display_yamd (reword_yamd g y) = G (display_yamd y).
  Proof.
    intros [m b]. unfold display_yamd, reword_yamd. cbn [metadata body]. destruct m as [m|]; cbn [option_map]; [|apply body_G]. unfold reword. rewrite ends_nl_G, body_G.
    symmetry. apply lit_G; [reflexivity|]. apply lit_G; [reflexivity|]. apply mid_G. apply lit_G; [destruct (ends_with_char c_nl m); reflexivity|]. apply lit_G; [reflexivity|]. apply lit_G; reflexivity.
  Qed.
End SwapAst.
