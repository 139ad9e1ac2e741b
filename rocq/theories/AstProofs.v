(** Normal form of the documents of [deserialize]. *)
From Verif Require Import Base Lexer LexSpec LexProofs LexFacts Ops Parser FParser Refine Refine2 Refine3
  Wf TokFacts StreamSpec StreamProofs StreamProofs2 StreamProofs3 Ast ToYamd Api Strict TreeAst AstSpec.

(** ** Where the nodes of the document come from *)

(** [n] is the document node of a tree. *)
Definition comes_from (s : str) (n : ynode) : Prop :=
  exists t, wf t /\ linked s (yield t) /\ In n (blocks s t).

Lemma kids_linked : forall s k t, linked s (yields k) -> In t k -> linked s (yield t).
Proof.
  intros s k t. induction k as [|u k IH]; intros L Hi; [contradiction|]. cbn in L. apply linked_app in L. destruct L as [L1 L2].
  destruct Hi as [->|Hi]; auto.
Qed.

Lemma tree_nodes : forall s t, wf t -> linked s (yield t) ->
  forall n, In n (flat_map all_nodes (match t with Node NDocument _ k _ => flat_map (blocks s) k | _ => blocks s t end)) -> comes_from s n.
Proof.
  intros s. induction t as [ts|ts|m o k c IH] using tree_ind'; intros W L n Hi; try contradiction.
  inversion W as [| |? ? ? ? Wk Sh]; subst. pose proof L as L0. cbn in L. fold (yields k) in L. apply linked_kids in L.
  assert (S0 : forall x, In x (blocks s (Node m o k c)) -> all_nodes x = [x] \/ m = NCollapsible).
  { intros x Hx. destruct m; cbn in Hx; try contradiction; try (destruct Hx as [<-|[]]; auto). }
  destruct (node_eq_dec m NDocument) as [->|ND].
  - rewrite Forall_forall in IH, Wk. apply in_flat_map in Hi. destruct Hi as (x & Hx & Hi). apply in_flat_map in Hx. destruct Hx as (t & Ht & Hx).
    pose proof (shape_kids _ _ _ _ Sh) as K. rewrite Forall_forall in K. specialize (K t Ht).
    apply (IH t Ht (Wk t Ht) (kids_linked s k t L Ht)). destruct t as [ts|ts|m' o' k' c']; try contradiction.
    destruct m'; try discriminate; apply in_flat_map; eauto.
  - assert (Hi' : In n (flat_map all_nodes (blocks s (Node m o k c)))) by (destruct m; auto; congruence). clear Hi. rename Hi' into Hi.
    apply in_flat_map in Hi. destruct Hi as (x & Hx & Hi). destruct (S0 x Hx) as [E| ->].
    + rewrite E in Hi. destruct Hi as [<-|[]]. exists (Node m o k c). auto.
    + cbn [blocks] in Hx. destruct Hx as [<-|[]]. cbn [all_nodes] in Hi. destruct Hi as [<-|Hi].
      * exists (Node NCollapsible o k c). split; [exact W|]. split; [exact L0|left; reflexivity].
      * apply in_flat_map in Hi. destruct Hi as (x & Hx & Hi). apply in_flat_map in Hx. destruct Hx as (d & Hd & Hx).
        rewrite Forall_forall in IH, Wk. specialize (IH d Hd (Wk d Hd) (kids_linked s k d L Hd)).
        destruct d as [ts|ts|md od kd cd]; try contradiction. destruct md; try contradiction. apply IH. apply in_flat_map. eauto.
Qed.

Lemma doc_comes_from : forall s n, In n (doc_nodes (document_of s)) -> comes_from s n.
Proof.
  intros s n H. unfold doc_nodes, document_of, doc_of in H. cbn [body] in H.
  destruct (fparse_wf (spec_tokens s)) as [W T]. pose proof (fparse_linked s) as L.
  destruct T as (k1 & d & Ek & (o & k & c & ->) & O). rewrite Ek in *. clear Ek.
  unfold body_of in H. rewrite flat_map_app in H. cbn [flat_map] in H. rewrite app_nil_r in H.
  apply in_flat_map in H. destruct H as (x & Hx & H). apply in_app_or in Hx.
  destruct Hx as [Hx|Hx].
  - exfalso. destruct O as [->|(m & -> & (o' & k' & c' & ->))]; contradiction.
  - rewrite yields_app in L. apply linked_app in L. destruct L as [_ L]. cbn in L. rewrite app_nil_r in L.
    apply Forall_app in W. destruct W as [_ W]. inversion W; subst.
    apply (tree_nodes s (Node NDocument o k c)); auto. apply in_flat_map. eauto.
Qed.

(** ** Inline bodies *)

Definition body_tree (s : str) (b : list par_node) (k : list tree) : Prop :=
  Forall wf k /\ linked s (yields k) /\ items inline k /\ b = pars_of s k.

Lemma paragraph_tree : forall s t b, wf t -> linked s (yield t) -> In b (paragraph_of s t) -> exists k, body_tree s b k.
Proof.
  intros s [ts|ts|[] o k c] b W L H; try contradiction. cbn in H. destruct H as [<-|[]].
  inversion W as [| |? ? ? ? Wk Sh]; subst. cbn in L. fold (yields k) in L. apply linked_kids in L.
  exists k. split; [exact Wk|]. split; [exact L|]. split; [apply Sh|reflexivity].
Qed.

Lemma item_trees : forall s t lvl, wf t -> linked s (yield t) ->
  forall b, In b (match t with
                  | Node NListItem _ _ _ => flat_map (fun it => match it with YItem x nested => x :: match nested with Some l' => item_bodies l' | None => [] end end) (item_of s lvl t)
                  | Node (NUnorderedList | NOrderedList) _ _ _ => item_bodies (list_of s lvl t)
                  | _ => [] end) ->
  exists b' k, b = trim_trailing_newline_from_text b' /\ body_tree s b' k.
Proof.
  intros s. induction t as [ts|ts|n o k c IH] using tree_ind'; intros lvl W L b Hi; try contradiction.
  inversion W as [| |? ? ? ? Wk Sh]; subst. cbn in L. fold (yields k) in L. apply linked_kids in L.
  rewrite Forall_forall in IH, Wk.
  assert (LI : In b (flat_map (fun it => match it with YItem x nested => x :: match nested with Some l' => item_bodies l' | None => [] end end) (flat_map (item_of s lvl) k)) ->
    exists b' k, b = trim_trailing_newline_from_text b' /\ body_tree s b' k).
  { intros H. apply in_flat_map in H. destruct H as (it & Hit & H). apply in_flat_map in Hit. destruct Hit as (t & Ht & Hit).
    apply (IH t Ht lvl (Wk t Ht) (kids_linked s k t L Ht) b).
    destruct t as [ts|ts|m o' k' c']; try contradiction. destruct m; try contradiction. apply in_flat_map. eauto. }
  destruct n; try contradiction.
  - destruct Sh as (_ & l0 & lk & p & M & R & H).
    assert (Ip : In p k) by (destruct H as [->|(x & -> & _)]; left; reflexivity).
    assert (E : exists r, item_of s lvl (Node NListItem o k c) = [YItem (concat (trimmed s p)) r] /\
       (r = None \/ exists x, In x k /\ list_at (S l0) x /\ r = Some (list_of s (S lvl) x))).
    { destruct H as [->|(x & -> & Lx)]; cbn; eexists; (split; [reflexivity|]); [left; reflexivity|right].
      exists x. split; [right; left; reflexivity|]. auto. }
    destruct E as (r & E & Hr). rewrite E in Hi. cbn [flat_map] in Hi. rewrite app_nil_r in Hi. destruct Hi as [<-|Hi].
    + destruct R as (o' & k' & c' & ->). cbn. rewrite app_nil_r. exists (pars_of s k').
      destruct (paragraph_tree s _ (pars_of s k') (Wk _ Ip) (kids_linked _ _ _ L Ip)) as (kk & B); [left; reflexivity|]. eauto.
    + destruct Hr as [->|(x & Hx & Lx & ->)]; [contradiction|].
      apply (IH x Hx (S lvl) (Wk x Hx) (kids_linked _ _ _ L Hx) b). destruct (list_kind_root _ _ Lx) as (ty & kx & ->). destruct ty; exact Hi.
  - apply LI. exact Hi.
  - apply LI. exact Hi.
Qed.

Lemma bodies_trees : forall s t n b, wf t -> linked s (yield t) -> In n (blocks s t) ->
  (In b (trimmed_bodies n) -> exists b' k, b = trim_trailing_newline_from_text b' /\ body_tree s b' k)
  /\ (In b (inline_bodies n) -> exists b' k, (b = b' \/ b = trim_trailing_newline_from_text b') /\ body_tree s b' k).
Proof.
  intros s t n b W L Hn.
  assert (G : In b (trimmed_bodies n) -> exists b' k, b = trim_trailing_newline_from_text b' /\ body_tree s b' k).
  { intros Hi. destruct t as [ts|ts|m o k c]; try contradiction.
    destruct m; cbn in Hn; try contradiction; (destruct Hn as [<-|[]]); cbn [trimmed_bodies] in Hi; try contradiction.
    - inversion W as [| |? ? ? ? Wk Sh]; subst. cbn in L. fold (yields k) in L. apply linked_kids in L. rewrite Forall_forall in Wk.
      apply in_flat_map in Hi. destruct Hi as (p & Hp & Hi). unfold trimmed in Hi. apply in_map_iff in Hi. destruct Hi as (b' & <- & Hi).
      destruct (paragraph_tree s p b' (Wk p Hp) (kids_linked _ _ _ L Hp) Hi) as (kk & B). eauto.
    - apply (item_trees s _ 0 W L b). exact Hi.
    - apply (item_trees s _ 0 W L b). exact Hi. }
  split; [exact G|]. intros Hi. destruct n; cbn [inline_bodies] in Hi; try (destruct (G Hi) as (b' & k & E & B); eauto).
  destruct Hi as [<-|[]]. destruct t as [ts|ts|m o k c]; try contradiction.
  destruct m; cbn in Hn; try contradiction; (destruct Hn as [Hn|[]]); try discriminate. injection Hn as <-.
  destruct (paragraph_tree s _ (pars_of s k) W L) as (kk & B); [left; reflexivity|]. eauto.
Qed.

(** ** Text and delimiters inside bodies *)

Definition kinds_of (t : tree) : list node := match t with Leaf _ => [] | Skip _ => [] | Node n _ _ _ => [n] end.

Lemma leaf_nonempty : forall s ts, linked s ts -> ts <> [] -> ttexts s ts <> [].
Proof.
  intros s [|t ts] [F _] N; [congruence|]. inversion F; subst. change (ttexts s (t :: ts)) with (ttext s t ++ ttexts s ts).
  pose proof (tok_nonempty s t ltac:(assumption)). destruct (ttext s t); [congruence|discriminate].
Qed.

(** Kind of the run tokens around an inline node. *)
Definition run_kind_of (n : node) : option token_kind :=
  match n with
  | NBold | NEmphasis => Some Star
  | NStrikethrough => Some Tilde
  | NCodeSpan => Some Backtick
  | _ => None
  end.

Lemma edge_tokens : forall n o k c r, shape n o k c -> run_kind_of n = Some r ->
  exists t u, o = [t] /\ c = [u] /\ kind t = r /\ kind u = r /\ is_run_kind r = true.
Proof.
  intros n o k c r Sh H.
  destruct n; cbn in H; try discriminate; injection H as <-; cbn [shape] in Sh;
  destruct Sh as ((t & -> & E1) & _ & (u & -> & E2)); exists t, u; repeat split; try (kind_of E1); kind_of E2.
Qed.

Lemma no_fuse : forall s t u a b r, linked s (a ++ t :: u :: b) -> kind t = r -> kind u = r -> is_run_kind r = true -> False.
Proof.
  intros s t u a b r L K1 K2 R. pose proof (linked_pair s a t u b L) as (_ & _ & J & _).
  destruct L as [F _]. rewrite Forall_forall in F. assert (Hu : tok_ok s u) by (apply F; apply in_or_app; right; right; left; reflexivity).
  destruct Hu as (x & _ & _ & _ & E). apply J; [|congruence|congruence].
  destruct (escaped u) eqn:Eu; [|reflexivity]. rewrite (E eq_refl) in K2. rewrite <- K2 in R. discriminate.
Qed.

Lemma nodes_apart : forall s n1 o1 k1 c1 n2 o2 k2 c2 r rest,
  shape n1 o1 k1 c1 -> shape n2 o2 k2 c2 -> linked s (yields (Node n1 o1 k1 c1 :: Node n2 o2 k2 c2 :: rest)) ->
  run_kind_of n1 = Some r -> run_kind_of n2 = Some r -> False.
Proof.
  intros s n1 o1 k1 c1 n2 o2 k2 c2 r rest S1 S2 L R1 R2.
  destruct (edge_tokens _ _ _ _ _ S1 R1) as (_ & t & _ & -> & _ & K1 & Run).
  destruct (edge_tokens _ _ _ _ _ S2 R2) as (u & _ & -> & _ & K2 & _ & _).
  cbn in L. rewrite <- !app_assoc in L. cbn in L. rewrite app_assoc in L. eapply no_fuse; eauto.
Qed.

Lemma kids_nonempty : forall s n o k c r, shape n o k c -> linked s (o ++ yields k ++ c) -> run_kind_of n = Some r -> yields k <> [].
Proof.
  intros s n o k c r Sh L R E. destruct (edge_tokens _ _ _ _ _ Sh R) as (t & u & -> & -> & K1 & K2 & Run).
  rewrite E in L. apply (no_fuse s t u [] [] r L K1 K2 Run).
Qed.

Lemma inner_text : forall s k, one_leaf k -> inner s k = ttexts s (yields k).
Proof. intros s k (b & ->). cbn. rewrite !app_nil_r. reflexivity. Qed.

Definition bold_normal (l : list bold_node) : Prop :=
  Forall (fun b => b <> BText [] /\ b <> BStrike []) l
  /\ no_neighbours (both is_btext) l /\ no_neighbours (both is_bstrike) l.

Definition par_normal (p : par_node) : Prop :=
  match p with
  | PText x | PCodeSpan x | PEmphasis x | PStrike x => x <> []
  | PBold l => l <> [] /\ bold_normal l
  | PItalic _ | PAnchor _ _ => True
  end.

Lemma no_neighbours_cons : forall A (bad : A -> A -> bool) p q l,
  no_neighbours bad (p :: q :: l) <-> bad p q = false /\ no_neighbours bad (q :: l).
Proof. reflexivity. Qed.

Lemma bold_of_one : forall s t, wf t -> match t with Skip _ => False | Node n _ _ _ => in_bold n = true | _ => True end ->
  exists b, bold_of s t = [b].
Proof. intros s [ts|ts|[] o k c] W H; try contradiction; try discriminate; cbn; eauto. Qed.

Lemma items_cons_inv : forall P t k, items P (t :: k) ->
  match t with Skip _ => False | Node n _ _ _ => P n = true | Leaf ts => ts <> [] /\ match k with Leaf _ :: _ => False | _ => True end end
  /\ items P k.
Proof. intros P [ts|ts|n o k' c] k H; cbn in H |- *; tauto. Qed.

Lemma bold_items : forall s k, Forall wf k -> linked s (yields k) -> items in_bold k -> bold_normal (flat_map (bold_of s) k)
  /\ (yields k <> [] -> flat_map (bold_of s) k <> []).
Proof.
  intros s k W L I. split.
  - induction k as [|t k IH]; [repeat constructor|]. inversion W as [|? ? Wt Wk]; subst.
    pose proof L as L0. cbn in L. apply linked_app in L. destruct L as [Lt Lk].
    pose proof (items_cons_inv _ _ _ I) as [It Ik]. specialize (IH Wk Lk Ik).
    assert (Bt : exists b, bold_of s t = [b] /\ b <> BText [] /\ b <> BStrike []).
    { destruct t as [ts|ts|n o kk c]; [|contradiction|].
      - exists (BText (ttexts s ts)). split; [reflexivity|]. split; [|discriminate]. intros E. injection E as E.
        apply (leaf_nonempty s ts Lt); [apply It|exact E].
      - destruct n; try discriminate.
        + exists (BItalic (inner s kk)). repeat split; discriminate.
        + exists (BStrike (inner s kk)). split; [reflexivity|]. split; [discriminate|]. intros E. injection E as E.
          inversion Wt as [| |? ? ? ? _ Sh]; subst. cbn in Lt. fold (yields kk) in Lt. destruct Sh as (S1 & S2 & S3).
          rewrite inner_text in E by exact S2. pose proof (kids_nonempty s NStrikethrough o kk c Tilde (conj S1 (conj S2 S3)) Lt eq_refl) as NE.
          apply (leaf_nonempty s (yields kk)); [apply linked_kids in Lt; exact Lt|exact NE|exact E]. }
    destruct Bt as (b & Eb & N1 & N2). cbn [flat_map]. rewrite Eb. cbn [app].
    destruct IH as (I1 & I2 & I3). split; [constructor; auto|].
    destruct k as [|u k]; [split; exact Logic.I|]. pose proof (items_cons_inv _ _ _ Ik) as [Iu _]. inversion Wk as [|? ? Wu _]; subst.
    destruct (bold_of_one s u Wu) as (b2 & E2). { destruct u; tauto. }
    cbn [flat_map] in I2, I3 |- *. rewrite E2 in *. cbn [app] in I2, I3 |- *.
    split; apply no_neighbours_cons; (split; [|assumption]).
    + destruct t as [ts|ts|n o kk c], u as [us|us|m o' k' c']; try contradiction; cbn in Eb, E2; try (exfalso; exact (proj2 It)).
      * destruct m; try discriminate; injection Eb as <-; injection E2 as <-; reflexivity.
      * destruct n; try discriminate; injection Eb as <-; injection E2 as <-; reflexivity.
      * destruct n, m; try discriminate; injection Eb as <-; injection E2 as <-; reflexivity.
    + destruct t as [ts|ts|n o kk c], u as [us|us|m o' k' c']; try contradiction; cbn in Eb, E2; try (exfalso; exact (proj2 It)).
      * destruct m; try discriminate; injection Eb as <-; injection E2 as <-; reflexivity.
      * destruct n; try discriminate; injection Eb as <-; injection E2 as <-; reflexivity.
      * destruct n, m; try discriminate; injection Eb as <-; injection E2 as <-; try reflexivity. exfalso.
        inversion Wt as [| |? ? ? ? _ S1]; subst. inversion Wu as [| |? ? ? ? _ S2]; subst.
        eapply (nodes_apart s NStrikethrough o kk c NStrikethrough o' k' c' Tilde k); eauto.
  - intros NE. destruct k as [|t k]; [cbn in NE; congruence|]. inversion W; subst. apply items_cons_inv in I. destruct I as [It _].
    destruct (bold_of_one s t) as (b & E); [assumption|destruct t; tauto|]. cbn [flat_map]. rewrite E. discriminate.
Qed.

Lemma par_of_one : forall s t, match t with Skip _ => False | Node n _ _ _ => inline n = true | _ => True end ->
  exists b, par_of s t = [b].
Proof. intros s [ts|ts|[] o k c] H; try contradiction; try discriminate; cbn; eauto. Qed.

Lemma par_items : forall s k, Forall wf k -> linked s (yields k) -> items inline k ->
  Forall par_normal (pars_of s k) /\ no_neighbours (both is_ptext) (pars_of s k) /\ no_neighbours fuse (pars_of s k).
Proof.
  intros s k W L I. induction k as [|t k IH]; [repeat constructor|]. inversion W as [|? ? Wt Wk]; subst.
  pose proof L as L0. cbn in L. apply linked_app in L. destruct L as [Lt Lk].
  pose proof (items_cons_inv _ _ _ I) as [It Ik]. specialize (IH Wk Lk Ik).
  assert (Bt : exists b, par_of s t = [b] /\ par_normal b).
  { destruct t as [ts|ts|n o kk c]; [|contradiction|].
    - exists (PText (ttexts s ts)). split; [reflexivity|]. apply leaf_nonempty; [exact Lt|apply It].
    - inversion Wt as [| |? ? ? ? Wkk Sh]; subst. cbn in Lt. fold (yields kk) in Lt. pose proof (linked_kids _ _ _ _ Lt) as Lkk.
      assert (NE : forall r, run_kind_of n = Some r -> one_leaf kk -> inner s kk <> []).
      { intros r R O. rewrite inner_text by exact O. apply leaf_nonempty; [exact Lkk|]. eapply kids_nonempty; eauto. }
      destruct n; try discriminate; cbn [par_of]; eexists; (split; [reflexivity|]); cbn [par_normal]; try exact Logic.I.
      + destruct (bold_items s kk Wkk Lkk) as [B1 B2]; [apply Sh|]. split; [|exact B1]. apply B2. eapply kids_nonempty; eauto. reflexivity.
      + eapply NE; [reflexivity|apply Sh].
      + eapply NE; [reflexivity|apply Sh].
      + eapply NE; [reflexivity|apply Sh]. }
  destruct Bt as (b & Eb & N1). unfold pars_of in *. cbn [flat_map]. rewrite Eb. cbn [app].
  destruct IH as (I1 & I2 & I3). split; [constructor; auto|].
  destruct k as [|u k]; [split; exact Logic.I|]. pose proof (items_cons_inv _ _ _ Ik) as [Iu _]. inversion Wk as [|? ? Wu _]; subst.
  destruct (par_of_one s u) as (b2 & E2). { destruct u; tauto. }
  cbn [flat_map] in I2, I3 |- *. rewrite E2 in *. cbn [app] in I2, I3 |- *.
  split; apply no_neighbours_cons; (split; [|assumption]).
  - destruct t as [ts|ts|n o kk c], u as [us|us|m o' k' c']; try contradiction; cbn in Eb, E2; try (exfalso; exact (proj2 It)).
    + destruct m; try discriminate; injection Eb as <-; injection E2 as <-; reflexivity.
    + destruct n; try discriminate; injection Eb as <-; injection E2 as <-; reflexivity.
    + destruct n, m; try discriminate; injection Eb as <-; injection E2 as <-; reflexivity.
  - destruct t as [ts|ts|n o kk c], u as [us|us|m o' k' c']; try contradiction; cbn in Eb, E2; try (exfalso; exact (proj2 It)).
    + destruct m; try discriminate; injection Eb as <-; injection E2 as <-; reflexivity.
    + destruct n; try discriminate; injection Eb as <-; injection E2 as <-; reflexivity.
    + inversion Wt as [| |? ? ? ? _ S1]; subst. inversion Wu as [| |? ? ? ? _ S2]; subst.
      assert (X : forall r, run_kind_of n = Some r -> run_kind_of m = Some r -> False).
      { intros r R1 R2. eapply (nodes_apart s n o kk c m o' k' c' r k); eauto. }
      destruct n, m; try discriminate; injection Eb as <-; injection E2 as <-; try reflexivity; exfalso; eapply X; reflexivity.
Qed.

(** Cutting off the final line feeds keeps all that. *)
Definition class (p : par_node) : par_node := match p with PText _ => PText [] | _ => p end.

Lemma trim_cases : forall b, exists b1, 
  (trim_trailing_newline_from_text b = b /\ (forall b1 x, b <> b1 ++ [PText x]))
  \/ exists x, b = b1 ++ [PText x] /\
      ((trim_end c_nl x = [] /\ trim_trailing_newline_from_text b = b1)
       \/ (trim_end c_nl x <> [] /\ trim_trailing_newline_from_text b = b1 ++ [PText (trim_end c_nl x)])).
Proof.
  intros b. unfold trim_trailing_newline_from_text. destruct (rev b) as [|p r] eqn:E.
  - exists []. left. apply (f_equal (@rev _)) in E. rewrite rev_involutive in E. subst b. split; [reflexivity|]. intros b1 x H. destruct b1; discriminate.
  - apply (f_equal (@rev _)) in E. rewrite rev_involutive in E. cbn in E. exists (rev r).
    destruct p; try (left; split; [reflexivity|]; intros b1 y H; subst b; apply app_inj_tail in H; destruct H as [_ H]; discriminate).
    right. exists s. split; [exact E|]. destruct (trim_end c_nl s) as [|c y]; [left|right]; (split; [congruence || discriminate|]); cbn; reflexivity.
Qed.

Lemma no_neighbours_prefix : forall A (bad : A -> A -> bool) a b, no_neighbours bad (a ++ b) -> no_neighbours bad a.
Proof.
  intros A bad a b. induction a as [|x [|y a] IH]; intros H; [exact I|exact I|]. cbn [app] in *. destruct H. split; auto.
Qed.
Lemma no_neighbours_last : forall A (bad : A -> A -> bool) a x y, (forall p, bad p x = bad p y) ->
  no_neighbours bad (a ++ [x]) -> no_neighbours bad (a ++ [y]).
Proof.
  intros A bad a x y E. induction a as [|p [|q a] IH]; intros H; [exact I| |].
  - cbn in *. rewrite <- E. exact H.
  - cbn [app] in *. destruct H. split; auto.
Qed.

Lemma trim_normal : forall b, Forall par_normal b /\ no_neighbours (both is_ptext) b /\ no_neighbours fuse b ->
  let b' := trim_trailing_newline_from_text b in Forall par_normal b' /\ no_neighbours (both is_ptext) b' /\ no_neighbours fuse b'.
Proof.
  intros b (H1 & H2 & H3). cbv zeta. destruct (trim_cases b) as (b1 & [[-> _]|(x & -> & [[_ ->]|[N ->]])]); [auto| |].
  - apply Forall_app in H1. destruct H1 as [H1 _]. split; [exact H1|]. split; eapply no_neighbours_prefix; eauto.
  - apply Forall_app in H1. destruct H1 as [H1 _]. split; [apply Forall_app; split; [exact H1|repeat constructor; exact N]|].
    split; (eapply no_neighbours_last; [|eauto]); intros p; reflexivity.
Qed.

Lemma trim_end_no_nl : forall c x y, trim_end c x <> y ++ [c].
Proof.
  intros c x y E. unfold trim_end in E. apply (f_equal (@rev _)) in E. rewrite rev_involutive, rev_app_distr in E. cbn in E.
  pose proof (trim_start_head c (rev x)) as H. rewrite E in H. unfold char_eqb in H. rewrite N.eqb_refl in H. discriminate.
Qed.

Lemma trim_last : forall b b1 x, no_neighbours (both is_ptext) b -> trim_trailing_newline_from_text b = b1 ++ [PText x] -> ~ ends_with_nl x.
Proof.
  intros b b1 x N E (y & ->). destruct (trim_cases b) as (b2 & [[E1 NT]|(z & -> & [[_ E1]|[_ E1]])]).
  - rewrite E1 in E. eapply NT; eauto.
  - rewrite E1 in E. subst b2. rewrite <- app_assoc in N. cbn in N. clear - N. induction b1 as [|p [|q b1] IH]; cbn in N.
    + destruct N; discriminate.
    + destruct N as [_ [N _]]. discriminate.
    + destruct N. auto.
  - rewrite E1 in E. apply app_inj_tail in E. destruct E as [_ E]. injection E as E. eapply trim_end_no_nl; eauto.
Qed.

Lemma doc_body_normal : forall s b, In b (doc_bodies (document_of s)) ->
  Forall par_normal b /\ no_neighbours (both is_ptext) b /\ no_neighbours fuse b.
Proof.
  intros s b H. apply in_flat_map in H. destruct H as (n & Hn & Hb). apply doc_comes_from in Hn. destruct Hn as (t & W & L & Hn).
  destruct (bodies_trees s t n b W L Hn) as [_ G]. destruct (G Hb) as (b' & k & E & (Wk & Lk & I & ->)).
  pose proof (par_items s k Wk Lk I) as P. destruct E as [->| ->]; [exact P|apply trim_normal; exact P].
Qed.

Lemma doc_body_trimmed : forall s n b b1 x, In n (doc_nodes (document_of s)) -> In b (trimmed_bodies n) ->
  b = b1 ++ [PText x] -> ~ ends_with_nl x.
Proof.
  intros s n b b1 x Hn Hb E. apply doc_comes_from in Hn. destruct Hn as (t & W & L & Hn).
  destruct (bodies_trees s t n b W L Hn) as [G _]. destruct (G Hb) as (b' & k & -> & (Wk & Lk & I & ->)).
  eapply trim_last; [|exact E]. apply (par_items s k Wk Lk I).
Qed.

(** ** Headings *)

Definition head_normal (l : list head_node) : Prop :=
  Forall (fun h => h <> HText []) l /\ no_neighbours (both is_htext) l.

Lemma head_items : forall s k, Forall wf k -> linked s (yields k) -> items in_heading k -> head_normal (flat_map (head_of s) k).
Proof.
  intros s k W L I. induction k as [|t k IH]; [repeat constructor|]. inversion W as [|? ? Wt Wk]; subst.
  cbn in L. apply linked_app in L. destruct L as [Lt Lk]. pose proof (items_cons_inv _ _ _ I) as [It Ik]. destruct (IH Wk Lk Ik) as [I1 I2].
  assert (Bt : exists b, head_of s t = [b] /\ b <> HText []).
  { destruct t as [ts|ts|n o kk c]; [|contradiction|].
    - exists (HText (ttexts s ts)). split; [reflexivity|]. intros E. injection E as E. apply (leaf_nonempty s ts Lt); [apply It|exact E].
    - destruct n; try discriminate. cbn. eexists. split; [reflexivity|discriminate]. }
  destruct Bt as (b & Eb & NE). cbn [flat_map]. rewrite Eb. cbn [app]. split; [constructor; auto|].
  destruct k as [|u k]; [exact Logic.I|]. pose proof (items_cons_inv _ _ _ Ik) as [Iu _].
  destruct t as [ts|ts|n o kk c], u as [us|us|m o' k' c']; try contradiction; cbn in Eb; try (exfalso; exact (proj2 It)).
  - destruct m; try discriminate. injection Eb as <-. cbn in I2 |- *. split; [reflexivity|exact I2].
  - destruct n; try discriminate. injection Eb as <-. cbn in I2 |- *. split; [reflexivity|exact I2].
  - destruct n, m; try discriminate. injection Eb as <-. cbn in I2 |- *. split; [reflexivity|exact I2].
Qed.

Lemma doc_heading : forall s l b, In (YHeading l b) (doc_nodes (document_of s)) -> 1 <= l <= 6 /\ head_normal b.
Proof.
  intros s l b H. apply doc_comes_from in H. destruct H as (t & W & L & H).
  destruct t as [ts|ts|m o k c]; try contradiction. destruct m; cbn in H; try contradiction; (destruct H as [H|[]]); try discriminate.
  injection H as <- <-. inversion W as [| |? ? ? ? Wk Sh]; subst. cbn in L. fold (yields k) in L. destruct Sh as (S1 & _ & S2 & _). split.
  - apply linked_app in L. destruct L as [L _]. apply heading_level; assumption.
  - apply head_items; [exact Wk|apply linked_kids in L; exact L|exact S2].
Qed.

(** Levels and [#]s. *)
Definition plain (n : node) : bool := match n with NDocument | NCollapsible | NHeading => false | _ => true end.
Lemma allowed_plain : forall n m, plain n = true \/ n = NHeading -> allowed n m = true -> plain m = true.
Proof. intros n m [H| ->] A; [destruct n; try discriminate; destruct m; try discriminate; reflexivity|destruct m; try discriminate; reflexivity]. Qed.

Lemma stream_levels_app : forall a b, stream_levels (a ++ b) = stream_levels a ++ stream_levels b.
Proof. intros. apply flat_map_app. Qed.
Lemma stream_levels_kids : forall s k, stream_levels (tevents_all s k) = flat_map (fun t => stream_levels (tevents s t)) k.
Proof.
  intros s k. induction k as [|t k IH]; [reflexivity|]. change (tevents_all s (t :: k)) with (tevents s t ++ tevents_all s k).
  rewrite stream_levels_app, IH. reflexivity.
Qed.

Lemma plain_levels : forall s t, wf t -> match t with Node n _ _ _ => plain n = true | _ => True end -> stream_levels (tevents s t) = [].
Proof.
  intros s. induction t as [ts|ts|n o k c IH] using tree_ind'; intros W P; try reflexivity.
  inversion W as [| |? ? ? ? Wk Sh]; subst. cbn [tevents]. fold (tevents_all s k).
  change ((Start n, ttexts s o) :: tevents_all s k ++ [(End n, ttexts s c)]) with ([(Start n, ttexts s o)] ++ tevents_all s k ++ [(End n, ttexts s c)]).
  rewrite !stream_levels_app, stream_levels_kids.
  assert (E : flat_map (fun t => stream_levels (tevents s t)) k = []).
  { pose proof (shape_kids _ _ _ _ Sh) as K. clear - IH Wk K P. induction k as [|t k IHk]; [reflexivity|].
    inversion IH as [|? ? IH1 IH2]; subst. inversion Wk; subst. inversion K as [|? ? K1 K2]; subst. cbn [flat_map]. rewrite IHk by assumption.
    rewrite IH1; [reflexivity|assumption|]. destruct t; try exact I. cbn in K1. eapply allowed_plain; [left; exact P|exact K1]. }
  rewrite E. destruct n; try discriminate; reflexivity.
Qed.

Lemma count_filter : forall l, length (filter (fun c => char_eqb c c_hash) (repeat c_hash l ++ [c_space])) = l.
Proof. induction l as [|l IH]; [reflexivity|]. cbn. rewrite IH. reflexivity. Qed.

Lemma tree_levels : forall s t, wf t -> linked s (yield t) ->
  stream_levels (tevents s t) =
  flat_map heading_levels (flat_map all_nodes (match t with Node NDocument _ k _ => flat_map (blocks s) k | _ => blocks s t end)).
Proof.
  intros s. induction t as [ts|ts|n o k c IH] using tree_ind'; intros W L; try reflexivity.
  inversion W as [| |? ? ? ? Wk Sh]; subst.
  destruct (plain n) eqn:P.
  { rewrite plain_levels by assumption. destruct n; try discriminate; reflexivity. }
  cbn in L. fold (yields k) in L. cbn [tevents]. fold (tevents_all s k).
  change ((Start n, ttexts s o) :: tevents_all s k ++ [(End n, ttexts s c)]) with ([(Start n, ttexts s o)] ++ tevents_all s k ++ [(End n, ttexts s c)]).
  rewrite !stream_levels_app, stream_levels_kids.
  pose proof (shape_kids _ _ _ _ Sh) as K. pose proof (linked_kids _ _ _ _ L) as Lk.
  destruct n; try discriminate; cbn [stream_levels flat_map fst snd app].
  - (* collapsible *) cbn [blocks flat_map all_nodes heading_levels app]. rewrite !app_nil_r.
    clear Sh L W. induction k as [|t k IHk]; [reflexivity|].
    inversion IH as [|? ? IH1 IH2]; subst. inversion Wk as [|? ? W1 W2]; subst. inversion K as [|? ? K1 K2]; subst.
    cbn in Lk. apply linked_app in Lk. destruct Lk as [L1 L2]. cbn [flat_map]. rewrite !flat_map_app. f_equal.
    + rewrite IH1 by assumption. destruct t as [ts|ts|m o' k' c']; try reflexivity. cbn in K1. destruct m; try discriminate; reflexivity.
    + apply IHk; assumption.
  - (* document *) rewrite !app_nil_r. clear Sh L W. induction k as [|t k IHk]; [reflexivity|].
    inversion IH as [|? ? IH1 IH2]; subst. inversion Wk as [|? ? W1 W2]; subst. inversion K as [|? ? K1 K2]; subst.
    cbn in Lk. apply linked_app in Lk. destruct Lk as [L1 L2]. cbn [flat_map]. rewrite !flat_map_app. f_equal.
    + rewrite IH1 by assumption. destruct t as [ts|ts|m o' k' c']; try reflexivity. cbn in K1. destruct m; try discriminate; reflexivity.
    + apply IHk; assumption.
  - (* heading *) assert (E : flat_map (fun t => stream_levels (tevents s t)) k = []).
    { clear - Wk K. induction k as [|t k IHk]; [reflexivity|]. inversion Wk; subst. inversion K as [|? ? K1 K2]; subst.
      cbn [flat_map]. rewrite IHk by assumption. rewrite plain_levels; [reflexivity|assumption|].
      destruct t; try exact I. cbn in K1. eapply allowed_plain; eauto. }
    rewrite E. cbn. destruct Sh as (S1 & _). apply linked_app in L. destruct L as [[F _] _]. destruct S1 as (t & u & -> & Et & Eu).
    inversion F as [|? ? Ft F']; subst. inversion F' as [|? ? Fu _]; subst.
    destruct (x_hash s t Ft Et) as (l & Hl & X). cbn. rewrite X, (x_space_1 s u Fu Eu), app_nil_r.
    f_equal. transitivity l; [exact (count_filter l)|symmetry; exact (count_hashes_repeat l)].
Qed.

Lemma doc_heading_levels : forall s ops es, parse s = Ok ops -> reads s ops es ->
  flat_map heading_levels (doc_nodes (document_of s)) = stream_levels es.
Proof.
  intros s ops es H R. rewrite (reads_fun s ops es (stream s) R (parse_reads s ops H)). unfold stream, document_of, doc_of, doc_nodes. cbn [body].
  destruct (fparse_wf (spec_tokens s)) as [W T]. pose proof (fparse_linked s) as L.
  destruct T as (k1 & d & Ek & (o & k & c & ->) & O). rewrite Ek in *. clear Ek.
  rewrite yields_app in L. apply linked_app in L. destruct L as [_ L]. cbn in L. rewrite app_nil_r in L.
  apply Forall_app in W. destruct W as [W1 W]. inversion W; subst.
  rewrite stream_levels_kids. unfold body_of. rewrite !flat_map_app. cbn [flat_map]. rewrite !app_nil_r.
  rewrite tree_levels by assumption.
  assert (E : flat_map (fun t => stream_levels (tevents s t)) k1 = []).
  { destruct O as [->|(m & -> & (o' & k' & c' & ->))]; [reflexivity|]. inversion W1; subst. cbn [flat_map]. rewrite plain_levels by (assumption || reflexivity). reflexivity. }
  rewrite E. destruct O as [->|(m & -> & (o' & k' & c' & ->))]; reflexivity.
Qed.

(** ** Lists, images, code, metadata *)

Lemma list_levels : forall s t lvl lvl0, wf t -> linked s (yield t) ->
  match t with
  | Node NListItem _ _ _ => Forall (fun it => match it with YItem _ (Some l') => levels_ok (S lvl) l' | YItem _ None => True end) (item_of s lvl t)
  | Node (NUnorderedList | NOrderedList) _ _ _ => list_at lvl0 t -> levels_ok lvl (list_of s lvl t)
  | _ => True
  end.
Proof.
  intros s. induction t as [ts|ts|n o k c IH] using tree_ind'; intros lvl lvl0 W L; try exact I.
  inversion W as [| |? ? ? ? Wk Sh]; subst. cbn in L. fold (yields k) in L. apply linked_kids in L.
  rewrite Forall_forall in IH, Wk.
  assert (G : forall lk, k <> [] -> Forall (item_at lvl0 lk) k ->
     flat_map (item_of s lvl) k <> [] /\
     fold_right and True (map (fun it => match it with YItem _ (Some l') => levels_ok (S lvl) l' | YItem _ None => True end) (flat_map (item_of s lvl) k))).
  { intros lk NE F. rewrite Forall_forall in F. split.
    - destruct k as [|t k]; [congruence|]. assert (Ht : In t (t :: k)) by (left; reflexivity). pose proof (Wk t Ht) as Wt.
      destruct (F t Ht) as (o' & k' & -> & _). inversion Wt as [| |? ? ? ? _ Si]; subst. destruct Si as (_ & l & lk' & p & _ & _ & H).
      destruct H as [->|(x & -> & _)]; discriminate.
    - assert (A : forall t, In t k -> Forall (fun it => match it with YItem _ (Some l') => levels_ok (S lvl) l' | YItem _ None => True end) (item_of s lvl t)).
      { intros t Ht. pose proof (IH t Ht lvl lvl0 (Wk t Ht) (kids_linked _ _ _ L Ht)) as X. destruct (F t Ht) as (o' & k' & -> & _). exact X. }
      clear - A. induction k as [|t k IHk]; [exact I|]. cbn [flat_map]. rewrite map_app, fold_right_app.
      assert (B : fold_right and True (map (fun it => match it with YItem _ (Some l') => levels_ok (S lvl) l' | YItem _ None => True end) (flat_map (item_of s lvl) k))).
      { apply IHk. intros t' Ht'. apply A. right. exact Ht'. }
      assert (C := A t (or_introl eq_refl)). induction C as [|x l Hx C IHC]; [exact B|]. cbn. split; [exact Hx|exact IHC]. }
  destruct n; try exact I.
  - destruct Sh as (_ & l0 & lk & p & M & R & H). destruct H as [->|(x & -> & Lx)]; cbn [item_of]; repeat constructor.
    assert (Hx : In x [p; x]) by (right; left; reflexivity).
    pose proof (IH x Hx (S lvl) (S l0) (Wk x Hx) (kids_linked _ _ _ L Hx)) as X.
    pose proof (list_kind_root _ _ Lx) as (ty & kx & ->). destruct ty; exact (X Lx).
  - intros (lk & k' & E & NE & F). assert (k' = k) by congruence. subst k'. rewrite list_of_eq. cbn [levels_ok]. split; [reflexivity|]. eapply G; eauto.
  - intros (lk & k' & E & NE & F). assert (k' = k) by congruence. subst k'. rewrite list_of_eq. cbn [levels_ok]. split; [reflexivity|]. eapply G; eauto.
Qed.

Lemma doc_list : forall s l, In (YListNode l) (doc_nodes (document_of s)) -> levels_ok 0 l.
Proof.
  intros s l H. apply doc_comes_from in H. destruct H as (t & W & L & H).
  destruct t as [ts|ts|m o k c]; try contradiction. inversion W as [| |? ? ? ? Wk Sh]; subst.
  destruct m; cbn [blocks] in H; try contradiction; try (destruct H as [H|[]]; discriminate).
  - destruct H as [H|[]]; injection H as <-. destruct Sh as (-> & -> & NE & lv & F). apply (list_levels s _ 0 lv W L). exists Ordered, k. auto.
  - destruct H as [H|[]]; injection H as <-. destruct Sh as (-> & -> & NE & lv & F). apply (list_levels s _ 0 lv W L). exists Unordered, k. auto.
Qed.

Lemma doc_images : forall s l, In (YImages l) (doc_nodes (document_of s)) -> 2 <= length l.
Proof.
  intros s l H. apply doc_comes_from in H. destruct H as (t & W & L & H).
  destruct t as [ts|ts|m o k c]; try contradiction. inversion W as [| |? ? ? ? Wk Sh]; subst.
  destruct m; cbn [blocks] in H; try contradiction; (destruct H as [H|[]]); try discriminate. injection H as <-.
  destruct Sh as (_ & _ & N & R). rewrite flat_map_concat_map.
  assert (E : length (concat (map (image_of s) k)) = length k).
  { clear - R. induction R as [|t k (o & k' & c & ->) R IH]; [reflexivity|]. cbn. rewrite IH. reflexivity. }
  rewrite E. exact N.
Qed.

Lemma doc_code : forall s l x, In (YCode l x) (doc_nodes (document_of s)) -> ~ ends_with_nl x.
Proof.
  intros s l x H (y & E). apply doc_comes_from in H. destruct H as (t & W & L & H).
  destruct t as [ts|ts|m o k c]; try contradiction.
  destruct m; cbn [blocks] in H; try contradiction; (destruct H as [H|[]]); try discriminate. injection H as <- <-.
  eapply trim_end_no_nl; eauto.
Qed.

Lemma doc_metadata : forall s m, metadata (document_of s) = Some m -> ~ starts_with_nl m /\ ~ ends_with_nl m.
Proof.
  intros s m H. unfold document_of, doc_of in H. cbn [metadata] in H. destruct (child_text s NMetadata _) as [x|]; [|discriminate].
  injection H as <-. split; intros (y & E).
  - unfold trim_both in E. pose proof (trim_start_head c_nl x) as X. destruct (trim_start c_nl x) as [|d z]; [discriminate|].
    unfold trim_end in E. cbn [rev] in E. rewrite (trim_start_snoc c_nl _ d X), rev_app_distr in E. cbn in E. injection E as -> _. discriminate.
  - eapply trim_end_no_nl; eauto.
Qed.
