(** The costs of the document of a source are at most twice the size of its text. *)
From Coq Require Import String Lia.
From Verif Require Import Base Lexer LexSpec LexProofs LexFacts Ops Parser FParser Refine Refine2 Refine3
  Wf TokFacts Ast ToYamd Api StreamSpec StreamProofs StreamProofs2 TreeAst AstSpec Texts Spaced Grow.
Open Scope list_scope.

Section Tree.
  Variable size : char -> nat.
  Hypothesis size_pos : forall c, 1 <= size c.
  Hypothesis size_ascii : forall c, utf8_len c = 1 -> size c = 1.
  Variable s : str.
  Notation sz := (sz size).
  Notation Z ts := (sz (ttexts s ts)).
  Notation wl := (wl s).
  Ltac sizes := repeat match goal with |- context [size ?c] => rewrite (size_ascii c) by reflexivity end.

  Lemma Z_app : forall a b, Z (a ++ b) = Z a + Z b.
  Proof. intros a b. rewrite ttexts_app. apply sz_app. Qed.
  Lemma Z_node : forall n o k c, Z (yield (Node n o k c)) = Z o + Z (yields k) + Z c.
  Proof. intros n o k c. rewrite yield_node, !sz_app. lia. Qed.
  Lemma Z_cons : forall t k, Z (yields (t :: k)) = Z (yield t) + Z (yields k).
  Proof. intros t k. rewrite Y_cons. apply sz_app. Qed.
  Lemma Z_apps : forall a b, Z (yields (a ++ b)) = Z (yields a) + Z (yields b).
  Proof. intros a b. rewrite Y_app. apply sz_app. Qed.
  Lemma sz_length : forall x, length x <= sz x.
  Proof. induction x as [|c x IH]; [cbn; lia|]. rewrite sz_cons. cbn [length]. pose proof (size_pos c). lia. Qed.
  Lemma trim_start_sz : forall c x, sz (trim_start c x) <= sz x.
  Proof. intros c x. induction x as [|d x IH]; [cbn; lia|]. cbn [trim_start]. destruct (char_eqb c d); [rewrite sz_cons; lia|lia]. Qed.
  Lemma sz_rev : forall x, sz (rev x) = sz x.
  Proof. induction x as [|c x IH]; [reflexivity|]. cbn [rev]. rewrite sz_app, IH, !sz_cons. cbn. lia. Qed.
  Lemma trim_end_sz : forall c x, sz (trim_end c x) <= sz x.
  Proof. intros c x. unfold trim_end. rewrite sz_rev. rewrite <- (sz_rev x). apply trim_start_sz. Qed.
  Lemma trim_both_sz : forall c x, sz (trim_both c x) <= sz x.
  Proof. intros c x. unfold trim_both. pose proof (trim_end_sz c (trim_start c x)). pose proof (trim_start_sz c x). lia. Qed.

  (** Delimiters. *)
  Lemma one_sz : forall f x ts, has s f x -> linked s ts -> one f ts -> Z ts = sz x.
  Proof. intros f x ts H L O. rewrite (one_ttext s f ts x H L O). reflexivity. Qed.
  Lemma one_eol_sz : forall f x ts, has s f x -> linked s ts -> one_eol f ts -> sz x <= Z ts.
  Proof. intros f x ts H L O. destruct (one_eol_ttext s f ts x H L O) as [->|(e & _ & ->)]; [lia|]. rewrite sz_app. lia. Qed.
  Lemma nonempty_sz : forall ts, linked s ts -> length ts <= Z ts.
  Proof.
    intros ts [F _]. induction ts as [|t ts IH]; [cbn; lia|]. inversion F; subst. change (ttexts s (t :: ts)) with (ttext s t ++ ttexts s ts). rewrite sz_app. cbn [length].
    pose proof (tok_nonempty s t ltac:(assumption)) as N. specialize (IH ltac:(assumption)). pose proof (sz_length (ttext s t)). destruct (ttext s t); [congruence|]. cbn [length] in *. lia.
  Qed.
  Lemma parts : forall n o k c, tlinked s (Node n o k c) -> linked s o /\ linked s (yields k) /\ linked s c.
  Proof. intros n o k c L. unfold tlinked in L. cbn [yield] in L. apply linked_app in L. destruct L as [Lo L]. apply linked_app in L. destruct L. auto. Qed.

  Ltac const x n := assert (sz x = n) by (unfold Grow.sz; cbn; sizes; reflexivity).
  (** A node with delimiters and one text. *)
  Lemma delim_sz : forall n o k c f g x y, tlinked s (Node n o k c) -> one f o -> one g c -> one_leaf k -> has s f x -> has s g y ->
    Z (yield (Node n o k c)) = sz x + sz (inner s k) + sz y.
  Proof.
    intros n o k c f g x y L O C K Hf Hg. rewrite Z_node, (inner_leaf s _ K). destruct (parts _ _ _ _ L) as (Lo & _ & Lc).
    rewrite (one_sz f x o), (one_sz g y c) by assumption. reflexivity.
  Qed.

  (** ** Inline nodes *)
  Lemma kids_cost : forall {A} (f : A -> nat) (g : tree -> list A) k, Forall wl k -> (forall t, wl t -> In t k -> list_sum (map f (g t)) <= 2 * Z (yield t)) ->
    list_sum (map f (flat_map g k)) <= 2 * Z (yields k).
  Proof.
    intros A f g k F H. induction k as [|t k IH]; [cbn; lia|]. cbn [flat_map]. rewrite map_app, list_sum_app, Z_cons. inversion F; subst.
    pose proof (H t ltac:(assumption) (or_introl eq_refl)). specialize (IH ltac:(assumption) (fun t T I => H t T (or_intror I))). lia.
  Qed.
  Ltac delims L S1 :=
    let O := fresh in let K := fresh in let C := fresh in destruct S1 as (O & K & C);
    first [ rewrite (delim_sz _ _ _ _ _ _ _ _ L O C K (x_underscore s) (x_underscore s)); const (s_ "_") 1
          | rewrite (delim_sz _ _ _ _ _ _ _ _ L O C K (x_tilde s) (x_tilde s)); const (s_ "~~") 2
          | rewrite (delim_sz _ _ _ _ _ _ _ _ L O C K (x_star s) (x_star s)); const (s_ "*") 1
          | rewrite (delim_sz _ _ _ _ _ _ _ _ L O C K (x_backtick s) (x_backtick s)); const (s_ "`") 1 ]; lia.
  Lemma tree_bold : forall t, wl t -> match t with Leaf _ => True | Skip _ => False | Node n _ _ _ => in_bold n = true end ->
    list_sum (map (bcost size) (bold_of s t)) <= 2 * Z (yield t).
  Proof.
    intros [ts|ts|n o k c] [W L] H; [cbn [bold_of par_of map list_sum fold_right bcost pcost yield]; lia|destruct H|]. destruct (wf_inv _ _ _ _ W) as [_ S1].
    destruct n; try discriminate H; cbn [shape] in S1; cbn [bold_of map list_sum fold_right bcost]; delims L S1.
  Qed.
  Lemma tree_link : forall k, Forall wl k -> (exists t d, k = [t; d] /\ root NTitle t /\ root NDestination d) ->
    4 + sz (link_text s k) + sz (link_dest s k) = Z (yields k).
  Proof.
    intros k F (t & d & -> & (o1 & k1 & c1 & ->) & (o2 & k2 & c2 & ->)). inversion F as [|? ? [W1 L1] F']; subst. inversion F' as [|? ? [W2 L2] _]; subst.
    unfold link_text, link_dest. rewrite child_text_hd. rewrite child_text_tl by discriminate. rewrite child_text_hd. cbn [text_or_empty].
    rewrite !Z_cons. destruct (wf_inv _ _ _ _ W1) as [_ (O1 & K1 & C1)]. destruct (wf_inv _ _ _ _ W2) as [_ (O2 & K2 & C2)].
    rewrite (delim_sz _ _ _ _ _ _ _ _ L1 O1 C1 K1 (x_left_bracket s) (x_right_bracket s)).
    rewrite (delim_sz _ _ _ _ _ _ _ _ L2 O2 C2 K2 (x_left_paren s) (x_right_paren s)).
    const (s_ "[") 1. const (s_ "]") 1. const (s_ "(") 1. const (s_ ")") 1. cbn [yields flat_map]. change (Z (@nil token)) with 0. lia.
  Qed.
  Lemma tree_par : forall t, wl t -> match t with Leaf _ => True | Skip _ => False | Node n _ _ _ => inline n = true end ->
    list_sum (map (pcost size) (par_of s t)) <= 2 * Z (yield t).
  Proof.
    intros [ts|ts|n o k c] [W L] H; [cbn [bold_of par_of map list_sum fold_right bcost pcost yield]; lia|destruct H|]. pose proof (kids s _ _ _ _ W L) as KK. destruct (wf_inv _ _ _ _ W) as [_ S1].
    destruct n; try discriminate H; cbn [shape] in S1; cbn [par_of map list_sum fold_right pcost]; try (delims L S1).
    - destruct S1 as (-> & -> & S1). pose proof (tree_link k KK S1). rewrite Z_node. cbn [ttexts flat_map]. change (sz (@nil char)) with 0. lia.
    - destruct S1 as (O & I & C). rewrite Z_node. destruct (parts _ _ _ _ L) as (Lo & _ & Lc).
      rewrite (one_sz _ _ _ (x_star2 s) Lo O), (one_sz _ _ _ (x_star2 s) Lc C). const (s_ "**") 2.
      pose proof (kids_cost (bcost size) (bold_of s) k KK (fun t T J => tree_bold t T (items_in _ _ _ I J))). lia.
  Qed.
  Lemma tree_pars : forall k, Forall wl k -> items inline k -> pscost size (pars_of s k) <= 2 * Z (yields k).
  Proof. intros k F I. apply kids_cost; [exact F|]. intros t T J. apply tree_par; [exact T|exact (items_in _ _ _ I J)]. Qed.
  Lemma trim_cost : forall l, pscost size (trim_trailing_newline_from_text l) <= pscost size l.
  Proof.
    intros l. unfold trim_trailing_newline_from_text. destruct (rev l) as [|p r] eqn:E; [lia|]. destruct p as [| | | |x| |]; try lia.
    assert (X : l = rev r ++ [PText x]) by (rewrite <- (rev_involutive l), E; reflexivity). rewrite X. unfold pscost. rewrite map_app, list_sum_app.
    pose proof (trim_end_sz c_nl x) as T. destruct (trim_end c_nl x) as [|d y]; [lia|]. cbn [rev]. rewrite map_app, list_sum_app. cbn [map list_sum fold_right pcost]. lia.
  Qed.
  Lemma tree_trimmed : forall t, wl t -> root NParagraph t -> exists l, trimmed s t = [l] /\ pscost size l <= 2 * Z (yield t).
  Proof.
    intros t [W L] (o & k & c & ->). pose proof (kids s _ _ _ _ W L) as K. destruct (wf_inv _ _ _ _ W) as [_ S1]. eexists. split; [reflexivity|].
    destruct S1 as (-> & -> & I & _). pose proof (trim_cost (pars_of s k)). pose proof (tree_pars k K I). rewrite Z_node. lia.
  Qed.
  Lemma tree_head : forall t, wl t -> match t with Leaf _ => True | Skip _ => False | Node n _ _ _ => in_heading n = true end ->
    list_sum (map (hcost size) (head_of s t)) <= 2 * Z (yield t).
  Proof.
    intros [ts|ts|n o k c] [W L] H; [cbn [head_of map list_sum fold_right hcost yield]; lia|destruct H|]. pose proof (kids s _ _ _ _ W L) as KK. destruct (wf_inv _ _ _ _ W) as [_ S1].
    destruct n; try discriminate H. cbn [shape] in S1. cbn [head_of map list_sum fold_right hcost]. destruct S1 as (-> & -> & S1). pose proof (tree_link k KK S1). rewrite Z_node. lia.
  Qed.
  Lemma tree_image : forall t, wl t -> root NImage t -> exists i, image_of s t = [i] /\ icost size i + 2 <= 2 * Z (yield t).
  Proof.
    intros t [W L] (o & k & c & ->). pose proof (kids s _ _ _ _ W L) as K. destruct (wf_inv _ _ _ _ W) as [_ S1]. eexists. split; [reflexivity|].
    destruct S1 as (_ & O & _ & S1). pose proof (tree_link k K S1) as E. rewrite Z_node. destruct (parts _ _ _ _ L) as (Lo & _ & _).
    rewrite (one_sz _ _ _ (x_bang s) Lo O). const (s_ "!") 1. unfold icost. cbn [alt src]. lia.
  Qed.

  (** ** Lists *)

  Lemma marker_sz : forall lvl lk o, linked s o -> marker lvl lk o -> Z o = lvl + 2.
  Proof.
    intros lvl lk o [F _] (_ & m & sp & M & S1 & H).
    assert (Hm : forall t, tok_ok s t -> list_kind_of t = Some lk -> sz (ttext s t) = 1).
    { intros t T E. unfold list_kind_of in E. destruct (kind_eqb (kind t) Minus && (tlen t =? 1)) eqn:A.
      - apply andb_true_iff in A. destruct A as [A B]. apply kind_eqb_eq in A. apply Nat.eqb_eq in B. rewrite (run_text_at _ _ _ c_minus T A eq_refl), B. unfold Grow.sz. cbn. sizes. reflexivity.
      - destruct (kind_eqb (kind t) Plus && (tlen t =? 1)) eqn:A'; [|discriminate].
        apply andb_true_iff in A'. destruct A' as [A' B]. apply kind_eqb_eq in A'. apply Nat.eqb_eq in B. rewrite (run_text_at _ _ _ c_plus T A' eq_refl), B. unfold Grow.sz. cbn. sizes. reflexivity. }
    assert (Hs : forall t, tok_ok s t -> is_space_1 t = true -> sz (ttext s t) = 1).
    { intros t T E. rewrite (x_space_1 s t T E). unfold Grow.sz. cbn. sizes. reflexivity. }
    destruct lvl as [|lvl].
    - subst o. inversion F as [|? ? F1 F']; subst. inversion F' as [|? ? F2 _]; subst. unfold ttexts. cbn [flat_map]. rewrite !sz_app, (Hm m F1 M), (Hs sp F2 S1). reflexivity.
    - destruct H as (i & -> & I). inversion F as [|? ? F0 F1']; subst. inversion F1' as [|? ? F1 F']; subst. inversion F' as [|? ? F2 _]; subst.
      unfold ttexts. cbn [flat_map]. rewrite !sz_app, (Hm m F1 M), (Hs sp F2 S1), (x_indent s _ i F0 I).
      assert (R : sz (repeat c_space (S lvl)) = S lvl) by (apply (sz_repeat size size_ascii); reflexivity). rewrite R. cbn. lia.
  Qed.
  Lemma add_sep_items : forall l b, l <> [] -> list_sum (map (fun x => x + 2) l) <= b -> add_sep 1 l + 2 <= b.
  Proof.
    intros l b N H. assert (list_sum (map (fun x => x + 2) l) = list_sum l + 2 * length l).
    { clear. induction l as [|x l IH]; [reflexivity|]. cbn [map list_sum fold_right length] in *. unfold list_sum in *. lia. }
    unfold add_sep. destruct l; [congruence|]. cbn [length pred] in *. lia.
  Qed.
  Lemma kids_each : forall {A} (f : A -> nat) (g : tree -> list A) k, (forall t, In t k -> exists i, g t = [i] /\ f i + 2 <= 2 * Z (yield t)) ->
    list_sum (map (fun x => x + 2) (map f (flat_map g k))) <= 2 * Z (yields k) /\ length (flat_map g k) = length k.
  Proof.
    intros A f g k H. induction k as [|t k IH]; [split; cbn; lia|]. destruct (H t (or_introl eq_refl)) as (i & E & B).
    destruct (IH (fun t I => H t (or_intror I))) as [I1 I2]. cbn [flat_map]. rewrite E, Z_cons. cbn [app map list_sum fold_right length] in *. unfold list_sum in *. split; lia.
  Qed.
  Lemma map_nonempty : forall {A B C} (f : B -> C) (g : A -> list B) k, k <> [] -> length (flat_map g k) = length k -> map f (flat_map g k) <> [].
  Proof. intros A B C f g k N L E. apply (f_equal (@length _)) in E. rewrite map_length, L in E. destruct k; [congruence|discriminate]. Qed.

  Lemma tree_list : forall t, wl t ->
    (forall lvl, list_at lvl t -> lcost size (list_of s lvl t) + 2 <= 2 * Z (yield t))
    /\ (forall lvl lk, item_at lvl lk t -> exists i, item_of s lvl t = [i] /\ line_cost size lvl i + 2 <= 2 * Z (yield t)).
  Proof.
    induction t as [ts|ts|n o k c IH] using tree_ind'; intros [W L].
    - split; [intros lvl (lk & k & H & _); discriminate|intros lvl lk (o & k & H & _); discriminate].
    - split; [intros lvl (lk & k & H & _); discriminate|intros lvl lk (o & k & H & _); discriminate].
    - pose proof (kids s _ _ _ _ W L) as K. destruct (wf_inv _ _ _ _ W) as [_ S1]. rewrite Forall_forall in IH. split.
      + intros lvl (lk & k' & E & N & F). injection E as -> -> -> ->. rewrite list_of_eq, lcost_eq.
        rewrite Forall_forall in F, K. destruct (kids_each (line_cost size lvl) (item_of s lvl) k') as [A B].
        { intros t T. apply (proj2 (IH t T (K t T))) with (lk := lk). auto. }
        apply add_sep_items; [apply map_nonempty; assumption|]. rewrite Z_node. lia.
      + intros lvl lk (o' & k' & E & M). injection E as -> -> -> ->. cbn in S1. destruct S1 as (_ & lvl' & lk' & p & M' & R & H).
        destruct (parts _ _ _ _ L) as (Lo & _ & _). pose proof (marker_sz _ _ _ Lo M) as Zo. pose proof (marker_sz _ _ _ Lo M') as Zo'. assert (lvl' = lvl) by lia. subst lvl'.
        rewrite Z_node, Zo. destruct H as [->|(x & -> & X)].
        * inversion K as [|? ? Kp _]; subst. destruct (tree_trimmed p Kp R) as (l & E & C). eexists. split; [reflexivity|]. rewrite E. cbn [concat]. rewrite app_nil_r.
          cbn [line_cost]. rewrite Z_cons. lia.
        * inversion K as [|? ? Kp K']; subst. inversion K' as [|? ? Kx _]; subst. destruct (tree_trimmed p Kp R) as (l & E & C). eexists. split; [reflexivity|]. rewrite E. cbn [concat]. rewrite app_nil_r.
          cbn [line_cost]. rewrite !Z_cons. pose proof (proj1 (IH x (or_intror (or_introl eq_refl)) Kx) (S lvl) X). lia.
  Qed.

  (** ** Blocks *)

  Lemma term_sz : forall t, tok_ok s t -> is_terminator t = true -> 2 <= Z [t].
  Proof.
    intros t T E. destruct (x_terminator s t T E) as (a & b & X & A & B). unfold ttexts. cbn [flat_map]. rewrite app_nil_r, X, sz_app.
    pose proof (sz_length a). pose proof (sz_length b). assert (forall e, newline e -> 1 <= length e) as N by (intros e [->| ->]; cbn; lia). pose proof (N a A). pose proof (N b B). lia.
  Qed.
  (** The parts with separators, when a part without room is followed by a blank line. *)
  Lemma spaced_sum : forall {A} (f : A -> nat) (g : tree -> list A) k,
    (forall t, In t k -> match t with Node _ _ _ _ => exists i, g t = [i] /\ f i + (if par t then 0 else 2) <= 2 * Z (yield t) | _ => g t = [] /\ 2 <= Z (yield t) end) ->
    spaced k -> add_sep 2 (map f (flat_map g k)) <= 2 * Z (yields k).
  Proof.
    intros A f g k H S. set (B := flat_map g k).
    assert (Q : add_sep 2 (map f B) <= 2 * Z (yields k) /\ (starts_node k = false -> (match B with [] => 0 | _ => 2 end) + add_sep 2 (map f B) <= 2 * Z (yields k))); [|apply Q].
    subst B. induction k as [|t k IH]; [split; cbn; lia|]. destruct S as [S1 S2]. destruct (IH (fun t I => H t (or_intror I)) S2) as [I1 I2]. clear IH.
    specialize (H t (or_introl eq_refl)). cbn [flat_map]. rewrite Z_cons. destruct t as [ts|ts|n o b c]; cbn [starts_node].
    - destruct H as [-> H]. cbn [app]. split; [lia|]. intros _. destruct (flat_map g k); lia.
    - destruct H as [-> H]. cbn [app]. split; [lia|]. intros _. destruct (flat_map g k); lia.
    - destruct H as (i & -> & H). split; [|discriminate]. cbn [app map].
      assert (E : add_sep 2 (f i :: map f (flat_map g k)) = f i + (match flat_map g k with [] => 0 | _ => 2 end) + add_sep 2 (map f (flat_map g k))).
      { unfold add_sep. destruct (flat_map g k) as [|j l]; cbn [map list_sum fold_right length pred]; unfold list_sum; lia. }
      rewrite E. destruct (par (Node n o b c)) eqn:P.
      + specialize (I2 (S1 eq_refl)). lia.
      + destruct (flat_map g k); lia.
  Qed.
  Lemma spaced_right : forall a b, spaced (a ++ b) -> spaced b.
  Proof. induction a as [|t a IH]; intros b S; [exact S|]. apply IH. apply S. Qed.
  Lemma tree_hl : forall k, hl_body k -> spaced k -> Forall wl k -> add_sep 2 (map (pscost size) (flat_map (trimmed s) k)) <= 2 * Z (yields k).
  Proof.
    intros k H S F. apply spaced_sum; [|exact S]. clear S. revert F. induction H as [|p k R H IH|t p k T R H IH]; intros F u I; [destruct I| |].
    - inversion F; subst. destruct I as [<-|I]; [|apply IH; assumption]. destruct (tree_trimmed p ltac:(assumption) R) as (l & E & C). destruct R as (o & b & c & ->). exists l. split; [exact E|]. cbn [par]. lia.
    - inversion F as [|? ? [_ F1] F2]; subst. inversion F2; subst. destruct I as [<-|[<-|I]]; [split; [reflexivity|]; apply term_sz; [|exact T]| |apply IH; assumption].
      + destruct F1 as [F1 _]. inversion F1; assumption.
      + destruct (tree_trimmed p ltac:(assumption) R) as (l & E & C). destruct R as (o & b & c & ->). exists l. split; [exact E|]. cbn [par]. lia.
  Qed.

  (** The text of a title line or metadata. *)
  Lemma opt_child : forall n k, n = NModifier \/ n = NIcon \/ n = NMetadata -> Forall wl k -> opt_root n k -> forall r, child_text s n r = None ->
    match child_text s n (k ++ r) with
    | None => True
    | Some x => sz x + (match n with NModifier => 1 | NIcon => 3 | _ => 6 end) <= Z (yields k)
    end.
  Proof.
    intros n k N F [->|(t & -> & (o & b & c & ->))] r E; cbn [app]; [rewrite E; exact I|]. rewrite child_text_hd. inversion F as [|? ? [W L] _]; subst.
    rewrite Z_cons, Z_node. destruct (wf_inv _ _ _ _ W) as [_ S1]. destruct (parts _ _ _ _ L) as (Lo & _ & Lc). pose proof (nonempty_sz o Lo) as No. pose proof (nonempty_sz c Lc) as Nc.
    destruct N as [->|[->| ->]]; cbn in S1; destruct S1 as (O & K & C); rewrite (inner_leaf s _ K).
    - destruct C as (c0 & -> & _). cbn [length] in *. lia.
    - destruct C as (c0 & -> & _). destruct O as (a & b' & -> & _). cbn [length] in *. lia.
    - rewrite (one_sz _ _ _ (x_three_dashes s) Lo O), (one_sz _ _ _ (x_three_dashes s) Lc C). const (s_ "---") 3. lia.
  Qed.
  Definition room (t : tree) : Prop :=
    match t with
    | Node _ _ _ _ => exists i, blocks s t = [i] /\ ncost size i + (if par t then 0 else 2) <= 2 * Z (yield t)
    | _ => blocks s t = [] /\ 2 <= Z (yield t)
    end.
  Lemma airy_inv : forall n o k c, airy (Node n o k c) -> Forall airy k /\ (n = NDocument \/ n = NHighlight -> spaced k).
  Proof. intros n o k c A. inversion A; auto. Qed.
  Lemma tree_blocks : forall t, wl t -> airy t ->
    (block t -> room t)
    /\ (root NDocument t -> add_sep 2 (map (ncost size) (docb s t)) <= 2 * Z (yield t)).
  Proof.
    induction t as [ts|ts|n o k c IH] using tree_ind'; intros [W L] A.
    - split; [|intros (? & ? & ? & H); discriminate]. intros (t & -> & T). split; [reflexivity|]. destruct L as [L _]. inversion L; subst. apply term_sz; assumption.
    - split; [intros []|intros (? & ? & ? & H); discriminate].
    - pose proof (kids s _ _ _ _ W L) as K. destruct (wf_inv _ _ _ _ W) as [_ S1]. apply airy_inv in A. destruct A as [A SP]. rewrite Forall_forall in IH, A.
      destruct (parts _ _ _ _ L) as (Lo & _ & Lc). pose proof (nonempty_sz o Lo) as No. split.
      + intro B. destruct (list_kind_dec n) as [N|N].
        { assert (X : list_at 0 (Node n o k c)) by (destruct B as [B|B]; [destruct N as [->| ->]; discriminate B|exact B]).
          pose proof (proj1 (tree_list _ (conj W L)) 0 X) as H.
          destruct N as [->| ->]; (eexists; split; [reflexivity|]; exact H). }
        assert (B' : simple_block_node n = true) by (destruct B as [B|(lk & k' & E & _)]; [exact B|]; injection E as -> _ _ _; destruct lk; cbn in N; tauto).
        clear B N. unfold room. rewrite Z_node. destruct n; try discriminate B'; cbn [blocks par].
        * (* code *) destruct S1 as (C & k1 & b & -> & H). eexists. split; [reflexivity|]. cbn [ncost]. apply Forall_app in K. destruct K as [K1 K2].
          assert (O : opt_root NModifier k1) by (destruct H as [[_ H]|[_ ->]]; [exact H|left; reflexivity]).
          assert (Zo : 3 <= Z o).
          { destruct H as [[H _]|[H _]]; [rewrite (one_sz _ _ _ (x_backtick3 s) Lo H); const (s_ "```") 3; lia|].
            destruct H as (a & e & -> & H & _). change [a; e] with ([a] ++ [e]). rewrite Z_app. apply (linked_app s [a] [e]) in Lo. destruct Lo as [La _].
            rewrite (one_sz _ _ _ (x_backtick3 s) La (ex_intro _ a (conj eq_refl H))). const (s_ "```") 3. lia. }
          pose proof (one_eol_sz _ _ _ (x_backtick3 s) Lc C) as Zc. const (s_ "```") 3.
          pose proof (opt_child NModifier k1 ltac:(auto) K1 O [Leaf b] eq_refl) as M. pose proof (trim_end_sz c_nl (inner s (k1 ++ [Leaf b]))) as T.
          assert (E : inner s (k1 ++ [Leaf b]) = ttexts s b).
          { unfold inner. rewrite flat_map_app. fold (inner s k1). rewrite (inner_none s _ _ O). cbn. rewrite app_nil_r. reflexivity. }
          rewrite E in T. rewrite E. rewrite Z_apps. assert (Zb : Z (yields [Leaf b]) = Z b) by (cbn [yields flat_map yield]; rewrite app_nil_r; reflexivity). rewrite Zb.
          destruct (child_text s NModifier (k1 ++ [Leaf b])) as [x|]; cbn [text_or_empty]; [lia|]. change (sz []) with 0. lia.
        * (* collapsible *) destruct S1 as (O & C & k1 & k2 & k3 & -> & OM & E3). eexists. split; [reflexivity|]. cbn [ncost].
          apply Forall_app in K. destruct K as [K1 K2]. inversion K2 as [|? ? K2' K3]; subst.
          assert (D : flat_map (fun d => match d with Node NDocument _ k2 _ => flat_map (blocks s) k2 | _ => [] end) (k1 ++ Node NDocument [] k2 [] :: k3) = flat_map (blocks s) k2).
          { rewrite flat_map_app. cbn [flat_map]. destruct OM as [->|(t & -> & (? & ? & ? & ->))]; destruct E3 as [->|(e & -> & _)]; cbn; rewrite ?app_nil_r; reflexivity. }
          cbn [app]. rewrite D, Z_apps, Z_cons.
          assert (Zo : 3 <= Z o).
          { destruct O as (a & e & -> & Oa & Oe). change [a; e] with ([a] ++ [e]). rewrite Z_app. apply (linked_app s [a] [e]) in Lo. destruct Lo as [La Le].
            rewrite (one_sz _ _ _ (x_collapsible_start s) La (ex_intro _ a (conj eq_refl Oa))). const (s_ "{%") 2. pose proof (nonempty_sz [e] Le). cbn [length] in *. lia. }
          pose proof (one_eol_sz _ _ _ (x_collapsible_end s) Lc C) as Zc. const (s_ "%}") 2.
          assert (IN : In (Node NDocument [] k2 []) (k1 ++ [Node NDocument [] k2 []] ++ k3)) by (apply in_or_app; right; left; reflexivity).
          pose proof (proj2 (IH _ IN K2' (A _ IN)) (root_node _ _ _ _)) as DD. cbn [docb] in DD.
          assert (M := opt_child NModifier k1 ltac:(auto) K1 OM (Node NDocument [] k2 [] :: k3)).
          assert (N1 : child_text s NModifier (Node NDocument [] k2 [] :: k3) = None).
          { apply child_none. intros t [<-|I]; [apply (root_not _ NDocument); [discriminate|apply root_node]|].
            destruct E3 as [->|(e & -> & _)]; [destruct I|]. destruct I as [<-|[]]. intros (? & ? & ? & X). discriminate X. }
          specialize (M N1). destruct (child_text s NModifier (k1 ++ Node NDocument [] k2 [] :: k3)) as [x|]; cbn [text_or_empty]; [lia|]. change (sz []) with 0. lia.
        * (* embed *) destruct S1 as (O & C & a & p & b & -> & P). eexists. split; [reflexivity|]. cbn [leaf_texts flat_map app value_at nth ncost].
          rewrite (one_sz _ _ _ (x_left_curly2 s) Lo O). pose proof (one_eol_sz _ _ _ (x_right_curly2 s) Lc C) as Zc. const (s_ "{{") 2. const (s_ "}}") 2.
          rewrite !Z_cons. inversion K as [|? ? _ K']; subst. inversion K' as [|? ? [_ Lp] _]; subst. pose proof (nonempty_sz [p] Lp) as Zp. cbn [yield length] in *. lia.
        * (* heading *) destruct S1 as (O & -> & I & _). eexists. split; [reflexivity|]. cbn [ncost].
          pose proof (kids_cost (hcost size) (head_of s) k K (fun t T J => tree_head t T (items_in _ _ _ I J))) as H.
          pose proof (heading_level s o Lo O) as HL.
          assert (Zo : Z o = count_hashes (ttexts s o) + 1).
          { destruct O as (t & u & -> & Et & Eu). destruct Lo as [F _]. inversion F as [|? ? Ft F']; subst. inversion F' as [|? ? Fu _]; subst.
            destruct (x_hash s t Ft Et) as (l & Hl & X). cbn [ttexts flat_map]. rewrite X, (x_space_1 s u Fu Eu), app_nil_r. change (s_ " ") with [c_space]. rewrite count_hashes_repeat, sz_app.
            assert (R : sz (repeat c_hash l) = l) by (apply (sz_repeat size size_ascii); reflexivity). rewrite R. unfold Grow.sz. cbn. sizes. reflexivity. }
          lia.
        * (* highlight *) destruct S1 as (C & k1 & k2 & k3 & -> & O2 & H3 & H). eexists. split; [reflexivity|]. cbn [ncost].
          assert (O1 : opt_root NModifier k1) by (destruct H as [[_ H]|[_ ->]]; [exact H|left; reflexivity]).
          assert (Zo : 3 <= Z o).
          { assert (X : exists a e, o = [a; e] /\ is_two_bangs a = true) by (destruct H as [[(a & e & E & X & _) _]|[(a & e & E & X & _) _]]; eauto).
            destruct X as (a & e & -> & X). change [a; e] with ([a] ++ [e]). rewrite Z_app. apply (linked_app s [a] [e]) in Lo. destruct Lo as [La Le].
            rewrite (one_sz _ _ _ (x_two_bangs s) La (ex_intro _ a (conj eq_refl X))). const (s_ "!!") 2. pose proof (nonempty_sz [e] Le). cbn [length] in *. lia. }
          pose proof (one_eol_sz _ _ _ (x_two_bangs s) Lc C) as Zc. const (s_ "!!") 2.
          apply Forall_app in K. destruct K as [K1 K2]. apply Forall_app in K2. destruct K2 as [K2 K3]. rewrite !Z_apps.
          assert (N1 : child_text s NModifier (k2 ++ k3) = None).
          { destruct O2 as [->|(t & -> & (o2 & q & c2 & ->))]; cbn [app]; [apply hl_none; [exact H3|discriminate]|]. rewrite child_text_tl by discriminate. apply hl_none; [exact H3|discriminate]. }
          assert (N2 : child_text s NIcon (k1 ++ k2 ++ k3) = child_text s NIcon (k2 ++ k3)).
          { destruct O1 as [->|(t & -> & (o2 & q & c2 & ->))]; cbn [app]; [reflexivity|]. apply child_text_tl. discriminate. }
          rewrite N2. rewrite !flat_map_app. rewrite (trimmed_none s _ _ O1), (trimmed_none s _ _ O2) by discriminate. cbn [app].
          specialize (SP (or_intror eq_refl)). apply spaced_right in SP. apply spaced_right in SP. pose proof (tree_hl k3 H3 SP K3) as HH.
          pose proof (opt_child NModifier k1 ltac:(auto) K1 O1 (k2 ++ k3) N1) as M1.
          pose proof (opt_child NIcon k2 ltac:(auto) K2 O2 k3 (hl_none s NIcon k3 H3 ltac:(discriminate))) as M2.
          assert (X1 : ocost size 1 (child_text s NModifier (k1 ++ k2 ++ k3)) <= 2 * Z (yields k1)) by (destruct (child_text s NModifier (k1 ++ k2 ++ k3)); cbn [ocost]; lia).
          assert (X2 : ocost size 3 (child_text s NIcon (k2 ++ k3)) <= 2 * Z (yields k2)) by (destruct (child_text s NIcon (k2 ++ k3)); cbn [ocost]; lia).
          lia.
        * (* image *) destruct (tree_image (Node NImage o k c) (conj W L) (root_node _ _ _ _)) as (i & E & H). rewrite E. exists (YImage i). split; [reflexivity|]. cbn [ncost]. rewrite Z_node in H. exact H.
        * (* images *) destruct S1 as (-> & -> & N & F). eexists. split; [reflexivity|]. cbn [ncost]. rewrite Forall_forall in F, K.
          destruct (kids_each (icost size) (image_of s) k (fun t T => tree_image t (K t T) (F t T))) as [X Y].
          assert (k <> []) by (intros ->; cbn in N; lia).
          pose proof (add_sep_items _ _ (map_nonempty (icost size) (image_of s) k ltac:(assumption) Y) X). lia.
        * (* paragraph *) destruct S1 as (-> & -> & I & _). eexists. split; [reflexivity|]. cbn [ncost]. pose proof (tree_pars k K I). lia.
        * (* break *) destruct S1 as (-> & -> & t & -> & T). eexists. split; [reflexivity|]. cbn [ncost]. inversion K as [|? ? [_ Lt] _]; subst.
          rewrite Z_cons. cbn [yield] in *. unfold tlinked in Lt. cbn [yield] in Lt. rewrite (one_sz _ _ _ (x_dash5 s) Lt (ex_intro _ t (conj eq_refl T))). const (s_ "-----") 5. lia.
      + intros (o' & k' & c' & E). injection E as -> -> -> ->. cbn [docb]. destruct S1 as (-> & -> & F). rewrite Forall_forall in F, K. rewrite Z_node.
        pose proof (spaced_sum (ncost size) (blocks s) k' (fun t T => proj1 (IH t T (K t T) (A t T)) (F t T)) (SP (or_introl eq_refl))). lia.
  Qed.

  Lemma tree_top : forall k, Forall wf k -> Forall airy k -> top k -> linked s (yields k) -> dcost size (doc_of s k) <= 2 * Z (yields k).
  Proof.
    intros k W A (k1 & d & -> & D & O) L.
    assert (F : Forall wl (k1 ++ [d])).
    { apply linked_each in L. rewrite Forall_forall in *. intros t T. split; auto. }
    apply Forall_app in F. destruct F as [F1 F2]. inversion F2 as [|? ? Fd _]; subst. apply Forall_app in A. destruct A as [_ A]. inversion A as [|? ? Ad _]; subst.
    unfold doc_of, dcost. cbn [metadata body]. rewrite Z_apps, Z_cons. change (Z (yields [])) with 0.
    assert (N : child_text s NMetadata [d] = None) by (apply child_none; intros t [<-|[]]; apply (root_not _ NDocument); [discriminate|exact D]).
    pose proof (opt_child NMetadata k1 ltac:(auto) F1 O [d] N) as K.
    pose proof (proj2 (tree_blocks d Fd Ad) D) as B. unfold body_of. rewrite flat_map_app.
    assert (E : flat_map (docb s) k1 = []) by (destruct O as [->|(t & -> & (? & ? & ? & ->))]; reflexivity).
    unfold docb in E. rewrite E. cbn [app flat_map]. rewrite app_nil_r. unfold docb in B.
    destruct (child_text s NMetadata (k1 ++ [d])) as [x|]; cbn [option_map]; [|lia]. pose proof (trim_both_sz c_nl x). lia.
  Qed.
End Tree.
