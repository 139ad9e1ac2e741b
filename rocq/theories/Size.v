(** The number of ops and of nodes is linear in the number of tokens. *)
From Coq Require Import String Lia.
From Verif Require Import Base Lexer LexSpec LexProofs LexFacts Ops Parser FParser Refine Refine2 Refine3
  Wf TokFacts Ast ToYamd Api StreamSpec StreamProofs StreamProofs2 TreeAst AstSpec Texts Spaced SizeSpec.
Open Scope list_scope.

Notation len := (@List.length token).

(** ** Ops *)

Fixpoint nops (t : tree) : nat :=
  match t with Leaf _ => 1 | Skip _ => 0 | Node _ _ k _ => 2 + list_sum (map nops k) end.
Notation nopss k := (list_sum (map nops k)).
Lemma nops_flatten : forall s t, List.length (flatten s t) = nops t.
Proof.
  intros s. induction t as [ts|ts|n o k c IH] using tree_ind'; [reflexivity|reflexivity|]. cbn [flatten nops List.length]. rewrite app_length. cbn [List.length].
  assert (E : List.length (flat_map (flatten s) k) = nopss k); [|lia].
  induction k as [|t k IHk]; [reflexivity|]. inversion IH; subst. cbn [flat_map map list_sum fold_right]. rewrite app_length. unfold list_sum in *. rewrite IHk by assumption. congruence.
Qed.
Lemma nopss_flattens : forall s k, List.length (flattens s k) = nopss k.
Proof. intros s k. unfold flattens. induction k as [|t k IH]; [reflexivity|]. cbn [flat_map map list_sum fold_right]. rewrite app_length, nops_flatten. unfold list_sum in *. congruence. Qed.
Lemma nopss_app : forall a b, nopss (a ++ b) = nopss a + nopss b.
Proof. intros a b. rewrite map_app. apply list_sum_app. Qed.
Lemma nopss_cons : forall t k, nopss (t :: k) = nops t + nopss k.
Proof. reflexivity. Qed.
Lemma ylen_cons : forall t k, len (yields (t :: k)) = len (yield t) + len (yields k).
Proof. intros t k. cbn [yields flat_map]. apply app_length. Qed.
Lemma ylen_app : forall a b, len (yields (a ++ b)) = len (yields a) + len (yields b).
Proof. intros a b. rewrite yields_app. apply app_length. Qed.
Lemma ylen_node : forall n o k c, len (yield (Node n o k c)) = len o + len (yields k) + len c.
Proof. intros n o k c. cbn [yield]. fold (yields k). rewrite !app_length. lia. Qed.
Lemma one_len : forall f ts, one f ts -> len ts = 1.
Proof. intros f ts (t & -> & _). reflexivity. Qed.
Lemma two_len : forall f g ts, two f g ts -> len ts = 2.
Proof. intros f g ts (t & u & -> & _). reflexivity. Qed.
Lemma one_eol_len : forall f ts, one_eol f ts -> 1 <= len ts.
Proof. intros f ts (t & _ & [->|(e & -> & _)]); cbn; lia. Qed.
Lemma one_leaf_nops : forall k, one_leaf k -> nopss k = 1.
Proof. intros k (b & ->). reflexivity. Qed.
Lemma marker_len : forall lvl lk o, marker lvl lk o -> 2 <= len o.
Proof. intros lvl lk o (_ & m & sp & _ & _ & H). destruct lvl; [subst; cbn; lia|]. destruct H as (i & -> & _). cbn. lia. Qed.

Lemma marker_level : forall l l' lk lk' o, marker l lk o -> marker l' lk' o -> l = l'.
Proof.
  intros l l' lk lk' o (_ & m & sp & _ & _ & H) (_ & m' & sp' & _ & _ & H'). destruct l, l'; [reflexivity| | |].
  - destruct H' as (i & -> & _). discriminate H.
  - destruct H as (i & -> & _). discriminate H'.
  - destruct H as (i & -> & I). destruct H' as (i' & E & I'). injection E as <- _ _. unfold is_indent in *. apply andb_true_iff in I, I'. destruct I as [_ I], I' as [_ I']. apply Nat.eqb_eq in I, I'. congruence.
Qed.

(** What a node has at least to spare. *)
Definition slack (n : node) : nat :=
  match n with NTitle | NDestination | NMetadata => 3 | NModifier => 0 | NIcon => 4 | NListItem | NImage => 2
             | NAnchor | NItalic | NStrikethrough | NEmphasis | NCodeSpan | NBold => 2 | _ => 0 end.
Definition tight (t : tree) : Prop :=
  match t with
  | Leaf _ | Skip _ => True
  | Node NParagraph _ _ _ => nops t <= 3 * len (yield t) \/ nops t = 2 /\ len (yield t) = 0
  | Node NDocument _ _ _ => nops t <= 3 * len (yield t) + 4
  | Node n _ _ _ => nops t + slack n <= 3 * len (yield t)
  end.
Lemma tight_sum : forall d k, (forall t, In t k -> nops t + d <= 3 * len (yield t)) -> nopss k + d * List.length k <= 3 * len (yields k).
Proof.
  intros d k H. induction k as [|t k IH]; [cbn; lia|]. rewrite nopss_cons, ylen_cons. cbn [List.length]. pose proof (H t (or_introl eq_refl)). specialize (IH (fun t I => H t (or_intror I))). lia.
Qed.
Lemma tight_items : forall P k, items P k -> (forall n, P n = true -> inline n = true) -> Forall tight k -> nopss k + 2 * List.length k <= 3 * len (yields k).
Proof.
  intros P k I HP F. apply tight_sum. intros t T. rewrite Forall_forall in F. specialize (F t T).
  assert (X : match t with Leaf ts => ts <> [] | Skip _ => False | Node n _ _ _ => inline n = true end).
  { clear F. revert I T. induction k as [|u k IH]; intros I T; [destruct T|]. destruct T as [<-|T].
    - destruct u; cbn [items] in I; [apply I|exact I|apply HP, I].
    - apply IH; [|exact T]. destruct u; cbn [items] in I; [apply I|destruct I|apply I]. }
  destruct t as [ts|ts|n o kk c]; [destruct ts; [congruence|]; cbn [nops yield List.length]; lia|destruct X|]. destruct n; try discriminate X; cbn [tight slack] in F; lia.
Qed.
Lemma tight_par : forall t, root NParagraph t -> tight t -> nops t <= 3 * len (yield t) + 2.
Proof. intros t (o & k & c & ->) T. cbn [tight] in T. lia. Qed.
Lemma tight_opt : forall n k, slack n = 0 \/ n = NIcon -> n <> NParagraph -> n <> NDocument -> opt_root n k -> Forall tight k -> nopss k <= 3 * len (yields k).
Proof.
  intros n k S NP ND [->|(t & -> & (o & b & c & ->))] F; [cbn; lia|]. inversion F as [|? ? T _]; subst. rewrite nopss_cons, ylen_cons. cbn [map list_sum fold_right yields flat_map List.length].
  destruct n; cbn [tight] in T; try congruence; lia.
Qed.
(** Paragraphs and blank lines. *)
Lemma tight_spaced : forall k, spaced k -> (forall t, In t k -> match t with Leaf ts => len ts = 1 | Skip _ => False | Node _ _ _ _ => nops t <= 3 * len (yield t) + if par t then 2 else 0 end) ->
  nopss k <= 3 * len (yields k) + 2.
Proof.
  intros k S H.
  assert (Q : nopss k <= 3 * len (yields k) + 2 /\ (starts_node k = false -> nopss k <= 3 * len (yields k))); [|apply Q].
  induction k as [|t k IH]; [split; cbn; lia|]. destruct S as [S1 S2]. destruct (IH S2 (fun t I => H t (or_intror I))) as [I1 I2]. clear IH.
  specialize (H t (or_introl eq_refl)). rewrite nopss_cons, ylen_cons. destruct t as [ts|ts|n o b c]; cbn [starts_node].
  - cbn [nops yield]. split; [lia|]. intros _. lia.
  - destruct H.
  - split; [|discriminate]. destruct (par (Node n o b c)) eqn:P; [specialize (I2 (S1 eq_refl)); lia|lia].
Qed.
Lemma hl_cases : forall k t, hl_body k -> In t k -> root NParagraph t \/ exists u, t = Leaf [u].
Proof. intros k t H. induction H as [|p k R H IH|u p k T R H IH]; intros I; [destruct I| |]; [destruct I as [<-|I]; auto|]. destruct I as [<-|[<-|I]]; eauto. Qed.

Lemma block_room : forall t, block t -> tight t -> match t with Leaf ts => len ts = 1 | Skip _ => False | Node _ _ _ _ => nops t <= 3 * len (yield t) + if par t then 2 else 0 end.
Proof.
  intros [ts|ts|n o k c] B T; [apply (one_len _ _ B)|exact B|]. destruct B as [B|B].
  - destruct n; try discriminate B; cbn [tight par slack] in *; lia.
  - destruct B as (lk & k' & E & _). injection E as -> -> -> ->. destruct lk; cbn [list_kind_node tight par slack] in *; lia.
Qed.

Lemma tree_tight : forall t, wf t -> airy t -> tight t.
Proof.
  induction t as [ts|ts|n o k c IH] using tree_ind'; intros W A; try exact I.
  destruct (wf_inv _ _ _ _ W) as [Wk S1]. inversion A as [| |? ? ? ? Ak SP]; subst.
  assert (K : Forall tight k) by (rewrite Forall_forall in *; intros t T; apply IH; auto). clear IH W A Wk Ak.
  assert (LK : forall P, items P k -> (forall n, P n = true -> inline n = true) -> nopss k + 2 * List.length k <= 3 * len (yields k)) by (intros P I HP; exact (tight_items P k I HP K)).
  assert (TD : (exists t d, k = [t; d] /\ root NTitle t /\ root NDestination d) -> nopss k + 6 <= 3 * len (yields k)).
  { intros (t & d & -> & (o1 & k1 & c1 & ->) & (o2 & k2 & c2 & ->)). inversion K as [|? ? T1 K']; subst. inversion K' as [|? ? T2 _]; subst. cbn [tight slack] in T1, T2. rewrite !nopss_cons, !ylen_cons. cbn [map list_sum fold_right yields flat_map List.length]. lia. }
  destruct n; cbn [tight slack]; rewrite ?ylen_node; cbn [nops]; cbn [shape] in S1.
  all: try (destruct S1 as (O & KK & C); rewrite (one_leaf_nops _ KK), (one_len _ _ O), (one_len _ _ C); lia).
  - (* anchor *) destruct S1 as (-> & -> & S1). specialize (TD S1). cbn [List.length]. lia.
  - (* bold *) destruct S1 as (O & I & C). rewrite (one_len _ _ O), (one_len _ _ C). specialize (LK _ I ltac:(intros []; cbn; congruence)). lia.
  - (* code *) destruct S1 as (C & k1 & b & -> & H). pose proof (one_eol_len _ _ C). apply Forall_app in K. destruct K as [K1 _]. rewrite nopss_app, ylen_app. cbn [map nops list_sum fold_right].
    destruct H as [[O M]|[O ->]]; [rewrite (one_len _ _ O); pose proof (tight_opt NModifier k1 (or_introl eq_refl) ltac:(discriminate) ltac:(discriminate) M K1); lia|].
    rewrite (two_len _ _ _ O). cbn [map list_sum fold_right yields flat_map List.length]. lia.
  - (* collapsible *) destruct S1 as (O & C & k1 & k2 & k3 & -> & M & E3). pose proof (one_eol_len _ _ C). rewrite (two_len _ _ _ O).
    apply Forall_app in K. destruct K as [K1 K2]. inversion K2 as [|? ? D K3]; subst. cbn [app]. rewrite nopss_app, ylen_app, nopss_cons, ylen_cons. cbn [tight] in D.
    pose proof (tight_opt NModifier k1 (or_introl eq_refl) ltac:(discriminate) ltac:(discriminate) M K1).
    assert (nopss k3 = 0) by (destruct E3 as [->|(e & -> & _)]; reflexivity). lia.
  - (* document *) destruct S1 as (-> & -> & B). cbn [List.length]. pose proof (tight_spaced k (SP (or_introl eq_refl))) as Q.
    assert (nopss k <= 3 * len (yields k) + 2); [|lia]. apply Q. intros t T. rewrite Forall_forall in B, K. apply block_room; auto.
  - (* embed *) destruct S1 as (O & C & a & p & b & -> & _). pose proof (one_eol_len _ _ C). rewrite (one_len _ _ O), !ylen_cons. cbn [map nops list_sum fold_right yield List.length yields flat_map]. lia.
  - (* heading *) destruct S1 as (O & -> & I & _). rewrite (two_len _ _ _ O). specialize (LK _ I ltac:(intros []; cbn; congruence)). cbn [List.length]. lia.
  - (* highlight *) destruct S1 as (C & k1 & k2 & k3 & -> & O2 & H3 & H). pose proof (one_eol_len _ _ C).
    assert (len o = 2) by (destruct H as [[H _]|[H _]]; exact (two_len _ _ _ H)).
    assert (M : opt_root NModifier k1) by (destruct H as [[_ H]|[_ ->]]; [exact H|left; reflexivity]).
    apply Forall_app in K. destruct K as [K1 K2]. apply Forall_app in K2. destruct K2 as [K2 K3]. rewrite !nopss_app, !ylen_app.
    pose proof (tight_opt NModifier k1 (or_introl eq_refl) ltac:(discriminate) ltac:(discriminate) M K1).
    pose proof (tight_opt NIcon k2 (or_intror eq_refl) ltac:(discriminate) ltac:(discriminate) O2 K2).
    assert (S3 : spaced k3).
    { specialize (SP (or_intror eq_refl)). revert SP. clear. intros SP. induction k1 as [|t k1 IH]; [|apply IH, SP]. induction k2 as [|t k2 IH]; [exact SP|apply IH, SP]. }
    pose proof (tight_spaced k3 S3) as Q. assert (nopss k3 <= 3 * len (yields k3) + 2); [|lia]. apply Q.
    intros t T. rewrite Forall_forall in K3. specialize (K3 t T). destruct (hl_cases _ _ H3 T) as [(o' & b & c' & ->)|(u & ->)]; [cbn [par tight] in *; lia|reflexivity].
  - (* icon *) destruct S1 as (O & KK & C). rewrite (one_leaf_nops _ KK), (two_len _ _ _ O), (one_len _ _ C). lia.
  - (* image *) destruct S1 as (_ & O & _ & S1). rewrite (one_len _ _ O). specialize (TD S1). lia.
  - (* images *) destruct S1 as (-> & -> & N & F). cbn [List.length].
    assert (nopss k + 2 * List.length k <= 3 * len (yields k)); [|lia]. apply tight_sum. intros t T. rewrite Forall_forall in F, K. destruct (F t T) as (o' & b & c' & ->). specialize (K _ T). exact K.
  - (* item *) destruct S1 as (-> & lvl & lk & p & M & R & H). pose proof (marker_len _ _ _ M). cbn [List.length]. destruct H as [->|(x & -> & (lk' & k' & -> & _))].
    + inversion K as [|? ? P _]; subst. pose proof (tight_par _ R P). rewrite nopss_cons, ylen_cons. cbn [map list_sum fold_right yields flat_map List.length]. lia.
    + inversion K as [|? ? P K']; subst. inversion K' as [|? ? X _]; subst. pose proof (tight_par _ R P).
      assert (nops (Node (list_kind_node lk') [] k' []) <= 3 * len (yield (Node (list_kind_node lk') [] k' []))) by (destruct lk'; cbn [list_kind_node tight slack] in *; lia).
      rewrite !nopss_cons, !ylen_cons. cbn [map list_sum fold_right yields flat_map List.length]. lia.
  - (* modifier *) destruct S1 as (-> & KK & C). rewrite (one_leaf_nops _ KK), (one_len _ _ C). cbn [List.length]. lia.
  - (* ordered *) destruct S1 as (-> & -> & N & lvl & F). cbn [List.length].
    assert (Q : nopss k + 2 * List.length k <= 3 * len (yields k)). { apply tight_sum. intros t T. rewrite Forall_forall in F, K. destruct (F t T) as (o' & b & -> & _). specialize (K _ T). exact K. }
    destruct k; [congruence|]. cbn [List.length] in Q. lia.
  - (* paragraph *) destruct S1 as (-> & -> & I & _). cbn [List.length]. destruct k as [|t k]; [right; split; reflexivity|left]. specialize (LK _ I ltac:(auto)). cbn [List.length] in *. lia.
  - (* break *) destruct S1 as (-> & -> & t & -> & _). cbn. lia.
  - (* unordered *) destruct S1 as (-> & -> & N & lvl & F). cbn [List.length].
    assert (Q : nopss k + 2 * List.length k <= 3 * len (yields k)). { apply tight_sum. intros t T. rewrite Forall_forall in F, K. destruct (F t T) as (o' & b & -> & _). specialize (K _ T). exact K. }
    destruct k; [congruence|]. cbn [List.length] in Q. lia.
Qed.

(** The blocks of a document are not empty. *)
Lemma doc_solid : forall n src st ts k rest, 3 * len ts < n -> vtok src ts -> fdoc n st ts = (k, rest) -> Forall (fun x => 1 <= len (yield x)) k.
Proof.
  induction n as [|n IH]; intros src st ts k rest Hn V H; [lia|]. cbn [fdoc] in H. destruct ts as [|t r]; [injection H as <- <-; constructor|].
  destruct (stopped st (t :: r)) eqn:S0; [injection H as <- <-; constructor|].
  assert (G : forall X, (let '(x, r1) := X in flips (t :: r) (yield x ++ r1) /\ 1 <= len (yield x)) ->
            (let '(x, r1) := X in let (k, r2) := fdoc n st r1 in (x :: k, r2)) = (k, rest) -> Forall (fun x => 1 <= len (yield x)) k).
  { intros [x r1] (Fx & Lx) E. destruct (fdoc n st r1) as [k' r2] eqn:F. injection E as <- <-.
    pose proof (flips_length _ _ Fx) as LL. rewrite app_length in LL. constructor; [exact Lx|]. apply (IH src) in F; [exact F|lia|].
    pose proof (flips_vtok src _ _ Fx V) as V1. apply Forall_app in V1. apply V1. }
  refine (G _ _ H). clear G H.
  destruct (is_terminator t) eqn:T.
  { split; [apply flips_refl|cbn; lia]. }
  destruct (fcode st (t :: r)) as [[y r1]|] eqn:E1.
  { pose proof (covers_code _ _ _ _ E1) as [Ey Ly]. split; [rewrite <- Ey; apply flips_refl|exact Ly]. }
  assert (Ln : 3 * len (t :: r) <= n) by (cbn [List.length] in *; lia).
  destruct (docs_ok (3 * len (t :: r)) n) as [_ CO].
  specialize (CO src [] (t :: r) st [] ltac:(discriminate) ltac:(lia) Ln V). unfold coll_ok in CO.
  destruct (fcollapsible n st (t :: r)) as [y r1|ts'] eqn:E2.
  { destruct CO as (Fy & Ly & _). auto. }
  destruct CO as [F2 _].
  destruct (forelse fembed fhighlight st ts') as [[y r1]|] eqn:E3.
  { pose proof (covers_orelse _ _ covers_embed covers_highlight _ _ _ _ E3) as [Ey Ly]. rewrite <- Ey. auto. }
  destruct (fsimple st ts') as [y r1] eqn:E4.
  assert (V' : vtok src ts') by (eapply flips_vtok; eauto).
  pose proof (simple_block_ST src [] ts' st [] y r1 V' E4) as [Ey _].
  split; [rewrite <- Ey; exact F2|]. eapply fsimple_progress; [exact E4|rewrite (flips_stopped st _ _ F2); exact S0|].
  rewrite (flips_nth is_terminator _ _ 0 flip_terminator F2). exact T.
Qed.
Lemma top_solid : forall s, exists k1 k2, fparse (spec_tokens s) = k1 ++ [Node NDocument [] k2 []] /\ opt_root NMetadata k1 /\ Forall (fun x => 1 <= len (yield x)) k2.
Proof.
  intros s. pose proof (vtok_lex s) as V. revert V. generalize (spec_tokens s). intros ts V. unfold fparse.
  destruct (opt_tree (fmetadata [] ts) ts) as [k1 r1] eqn:K1. destruct (fdoc (3 * len r1 + 5) [] r1) as [k2 r2] eqn:D. exists k1, k2. split; [reflexivity|].
  destruct (fmetadata [] ts) as [[x y]|] eqn:E; injection K1 as <- <-.
  - pose proof (covers_delim _ _ _ _ _ _ _ E) as [Ey _]. apply makes_metadata in E. split; [right; exists x; split; [reflexivity|apply E]|].
    eapply doc_solid; [|rewrite Ey in V; apply Forall_app in V; apply V|exact D]. lia.
  - split; [left; reflexivity|]. eapply doc_solid; [|exact V|exact D]. lia.
Qed.

Theorem ops_bound : forall s ops, parse s = Ok ops -> List.length ops <= 3 * len (spec_tokens s) + 2.
Proof.
  intros s ops H. destruct (parse_refines s) as [E F]. rewrite E in H. injection H as <-. rewrite nopss_flattens, (flips_length _ _ F).
  destruct (fparse_wf (spec_tokens s)) as [W _]. pose proof (fparse_airy (spec_tokens s)) as A. destruct (top_solid s) as (k1 & k2 & X & M & S). rewrite X in *. clear X E F.
  apply Forall_app in W, A. destruct W as [W1 W2], A as [A1 A2]. inversion W2 as [|? ? Wd _]; subst. inversion A2 as [|? ? Ad _]; subst.
  destruct (wf_inv _ _ _ _ Wd) as [Wk (_ & _ & B)]. inversion Ad as [| |? ? ? ? Ak _]; subst.
  rewrite nopss_app, ylen_app, nopss_cons, ylen_cons, ylen_node. cbn [nops List.length map list_sum fold_right yields flat_map].
  assert (Q1 : nopss k1 <= 3 * len (yields k1)).
  { rewrite <- (Nat.add_0_r (nopss k1)). change 0 with (0 * List.length k1) at 1. apply tight_sum. intros t T. rewrite Forall_forall in *. specialize (W1 t T). specialize (A1 t T). pose proof (tree_tight t W1 A1) as TT.
    destruct M as [->|(m & -> & (o & k & c & ->))]; [destruct T|]. destruct T as [<-|[]]. cbn [tight slack] in TT. lia. }
  assert (Q2 : nopss k2 <= 3 * len (yields k2)).
  { rewrite <- (Nat.add_0_r (nopss k2)). change 0 with (0 * List.length k2) at 1. apply tight_sum. intros t T. rewrite Forall_forall in *.
    specialize (S t T). specialize (B t T). pose proof (tree_tight t (Wk t T) (Ak t T)) as TT. pose proof (block_room t B TT) as R.
    destruct t as [ts|ts|n o k c]; [cbn [nops yield] in *; lia|destruct R|]. destruct (par (Node n o k c)) eqn:P; [|lia]. destruct n; try discriminate P. cbn [tight] in TT. lia. }
  fold (yields k2). lia.
Qed.

(** ** Nodes *)

Section Nodes.
  Variable s : str.
  Notation sum := (fun A f (l : list A) => list_sum (map f l)).

  Lemma wf_nonempty : forall n o k c, wf (Node n o k c) -> inline n = true -> 2 <= len o + len c \/ n = NAnchor /\ 4 <= len (yields k).
  Proof.
    intros n o k c W H. destruct (wf_inv _ _ _ _ W) as [Wk S1]. destruct n; try discriminate H; cbn [shape] in S1; try (left; destruct S1 as (O & _ & C); rewrite (one_len _ _ O), (one_len _ _ C); lia).
    right. split; [reflexivity|]. destruct S1 as (_ & _ & t & d & -> & (o1 & k1 & c1 & ->) & (o2 & k2 & c2 & ->)). inversion Wk as [|? ? W1 W']; subst. inversion W' as [|? ? W2 _]; subst.
    destruct (wf_inv _ _ _ _ W1) as [_ (O1 & _ & C1)]. destruct (wf_inv _ _ _ _ W2) as [_ (O2 & _ & C2)]. rewrite !ylen_cons, !ylen_node, (one_len _ _ O1), (one_len _ _ C1), (one_len _ _ O2), (one_len _ _ C2). lia.
  Qed.
  Lemma items_in_all : forall P k t, items P k -> In t k -> match t with Leaf ts => ts <> [] | Skip _ => False | Node n _ _ _ => P n = true end.
  Proof.
    intros P k t. induction k as [|u k IH]; intros I T; [destruct T|]. destruct T as [<-|T].
    - destruct u; cbn [items] in I; [apply I|exact I|apply I].
    - apply IH; [|exact T]. destruct u; cbn [items] in I; [apply I|destruct I|apply I].
  Qed.
  Lemma kids_count : forall {A} (f : A -> nat) (g : tree -> list A) k, (forall t, In t k -> list_sum (map f (g t)) <= len (yield t)) -> list_sum (map f (flat_map g k)) <= len (yields k).
  Proof.
    intros A f g k H. induction k as [|t k IH]; [cbn; lia|]. cbn [flat_map]. rewrite map_app, list_sum_app, ylen_cons. pose proof (H t (or_introl eq_refl)). specialize (IH (fun t I => H t (or_intror I))). lia.
  Qed.
  Lemma kids_length : forall {A} (g : tree -> list A) k, (forall t, In t k -> List.length (g t) <= len (yield t)) -> List.length (flat_map g k) <= len (yields k).
  Proof.
    intros A g k H. induction k as [|t k IH]; [cbn; lia|]. cbn [flat_map]. rewrite app_length, ylen_cons. pose proof (H t (or_introl eq_refl)). specialize (IH (fun t I => H t (or_intror I))). lia.
  Qed.
  Lemma bold_len : forall t, List.length (bold_of s t) <= 1.
  Proof. intros [ts|ts|n o k c]; cbn [bold_of List.length]; [lia|lia|]. destruct n; cbn [List.length]; lia. Qed.
  Lemma item_len : forall P k t, (forall n, P n = true -> inline n = true) -> Forall wf k -> items P k -> In t k -> 1 <= len (yield t).
  Proof.
    intros P k t HP W I T. pose proof (items_in_all _ _ _ I T) as X. rewrite Forall_forall in W. specialize (W t T). destruct t as [ts|ts|n o b c]; [destruct ts; [congruence|cbn; lia]|destruct X|].
    rewrite ylen_node. destruct (wf_nonempty _ _ _ _ W (HP _ X)) as [Q|[_ Q]]; lia.
  Qed.
  Lemma par_count : forall t, wf t -> match t with Leaf ts => ts <> [] | Skip _ => False | Node n _ _ _ => inline n = true end -> list_sum (map par_nodes (par_of s t)) <= len (yield t).
  Proof.
    intros [ts|ts|n o k c] W X; [destruct ts; [congruence|cbn; lia]|destruct X|]. rewrite ylen_node. pose proof (wf_nonempty _ _ _ _ W X) as Q. destruct (wf_inv _ _ _ _ W) as [Wk S1].
    destruct n; try discriminate X; cbn [par_of map list_sum fold_right par_nodes]; try lia.
    destruct S1 as (_ & I & _). destruct Q as [Q|[Q _]]; [|discriminate Q].
    pose proof (kids_length (bold_of s) k (fun t T => Nat.le_trans _ _ _ (bold_len t) (item_len in_bold _ t ltac:(intros []; cbn; congruence) Wk I T))) as B. lia.
  Qed.
  Lemma pars_count : forall k, Forall wf k -> items inline k -> pars_nodes (pars_of s k) <= len (yields k).
  Proof. intros k W I. apply kids_count. intros t T. apply par_count; [rewrite Forall_forall in W; auto|]. exact (items_in_all _ _ _ I T). Qed.
  Lemma trim_count : forall l, pars_nodes (trim_trailing_newline_from_text l) <= pars_nodes l.
  Proof.
    intros l. unfold trim_trailing_newline_from_text. destruct (rev l) as [|p r] eqn:E; [lia|]. destruct p as [| | | |x| |]; try lia.
    assert (X : l = rev r ++ [PText x]) by (rewrite <- (rev_involutive l), E; reflexivity). rewrite X. unfold pars_nodes. rewrite map_app, list_sum_app.
    destruct (trim_end c_nl x) as [|d y]; [lia|]. cbn [rev]. rewrite map_app, list_sum_app. cbn [map list_sum fold_right par_nodes]. lia.
  Qed.
  Lemma trimmed_count : forall t, wf t -> root NParagraph t -> exists l, trimmed s t = [l] /\ pars_nodes l <= len (yield t).
  Proof.
    intros t W (o & k & c & ->). destruct (wf_inv _ _ _ _ W) as [Wk S1]. eexists. split; [reflexivity|]. destruct S1 as (-> & -> & I & _).
    pose proof (trim_count (pars_of s k)). pose proof (pars_count k Wk I). rewrite ylen_node. lia.
  Qed.

  Definition item_nodes (it : yitem) : nat := match it with YItem text nested => S (pars_nodes text + match nested with Some l' => list_nodes l' | None => 0 end) end.
  Lemma list_nodes_eq : forall ty lvl its, list_nodes (YList ty lvl its) = S (list_sum (map item_nodes its)).
  Proof. reflexivity. Qed.
  Lemma list_count : forall t, wf t ->
    (forall lvl, list_at lvl t -> list_nodes (list_of s lvl t) <= len (yield t))
    /\ (forall lvl lk, item_at lvl lk t -> exists i, item_of s lvl t = [i] /\ item_nodes i + 1 <= len (yield t)).
  Proof.
    induction t as [ts|ts|n o k c IH] using tree_ind'; intros W.
    - split; [intros lvl (lk & k & H & _); discriminate|intros lvl lk (o & k & H & _); discriminate].
    - split; [intros lvl (lk & k & H & _); discriminate|intros lvl lk (o & k & H & _); discriminate].
    - destruct (wf_inv _ _ _ _ W) as [K S1]. rewrite Forall_forall in IH. split.
      + intros lvl (lk & k' & E & N & F). injection E as -> -> -> ->. rewrite list_of_eq, list_nodes_eq, ylen_node. rewrite Forall_forall in F, K.
        assert (A : list_sum (map item_nodes (flat_map (item_of s lvl) k')) + List.length k' <= len (yields k')).
        { assert (Q : forall t, In t k' -> exists i, item_of s lvl t = [i] /\ item_nodes i + 1 <= len (yield t)) by (intros t T; apply (proj2 (IH t T (K t T))) with (lk := lk); auto).
          revert Q. clear. induction k' as [|t k IH]; intros Q; [cbn; lia|]. cbn [flat_map]. rewrite map_app, list_sum_app, ylen_cons. destruct (Q t (or_introl eq_refl)) as (i & -> & B).
          specialize (IH (fun t I => Q t (or_intror I))). cbn [map list_sum fold_right List.length] in *. unfold list_sum in *. lia. }
        destruct k'; [congruence|]. cbn [List.length] in *. lia.
      + intros lvl lk (o' & k' & E & M). injection E as -> -> -> ->. cbn in S1. destruct S1 as (_ & lvl' & lk' & p & M' & R & H).
        pose proof (marker_len _ _ _ M) as Lo. pose proof (marker_level _ _ _ _ _ M M') as <-. rewrite ylen_node. destruct H as [->|(x & -> & X)].
        * inversion K as [|? ? Kp _]; subst. destruct (trimmed_count p Kp R) as (l & E & C). eexists. split; [reflexivity|]. rewrite E. cbn [concat]. rewrite app_nil_r.
          cbn [item_nodes]. rewrite ylen_cons. lia.
        * inversion K as [|? ? Kp K']; subst. inversion K' as [|? ? Kx _]; subst. destruct (trimmed_count p Kp R) as (l & E & C). eexists. split; [reflexivity|]. rewrite E. cbn [concat]. rewrite app_nil_r.
          cbn [item_nodes]. rewrite !ylen_cons. pose proof (proj1 (IH x (or_intror (or_introl eq_refl)) Kx) (S lvl) X). lia.
  Qed.

  Lemma spaced_count : forall {A} (f : A -> nat) (g : tree -> list A) k, spaced k ->
    (forall t, In t k -> match t with Node _ _ _ _ => list_sum (map f (g t)) <= len (yield t) + (if par t then 1 else 0) | _ => g t = [] /\ 1 <= len (yield t) end) ->
    list_sum (map f (flat_map g k)) <= len (yields k) + 1.
  Proof.
    intros A f g k S H.
    assert (Q : list_sum (map f (flat_map g k)) <= len (yields k) + 1 /\ (starts_node k = false -> list_sum (map f (flat_map g k)) <= len (yields k))); [|apply Q].
    induction k as [|t k IH]; [split; cbn; lia|]. destruct S as [S1 S2]. destruct (IH S2 (fun t I => H t (or_intror I))) as [I1 I2]. clear IH.
    specialize (H t (or_introl eq_refl)). cbn [flat_map]. rewrite map_app, list_sum_app, ylen_cons. destruct t as [ts|ts|n o b c]; cbn [starts_node].
    - destruct H as [-> H]. cbn [map list_sum fold_right]. split; [|intros _]; lia.
    - destruct H as [-> H]. cbn [map list_sum fold_right]. split; [|intros _]; lia.
    - split; [|discriminate]. destruct (par (Node n o b c)) eqn:P; [specialize (I2 (S1 eq_refl)); lia|lia].
  Qed.
  Definition fits (t : tree) : Prop :=
    match t with Node _ _ _ _ => list_sum (map block_nodes (blocks s t)) <= len (yield t) + (if par t then 1 else 0) | _ => blocks s t = [] /\ 1 <= len (yield t) end.
  Lemma block_count : forall t, wf t -> airy t ->
    (block t -> fits t) /\ (root NDocument t -> list_sum (map block_nodes (docb s t)) <= len (yield t) + 1).
  Proof.
    induction t as [ts|ts|n o k c IH] using tree_ind'; intros W A.
    - split; [|intros (? & ? & ? & H); discriminate]. intros (t & -> & T). split; [reflexivity|cbn; lia].
    - split; [intros []|intros (? & ? & ? & H); discriminate].
    - destruct (wf_inv _ _ _ _ W) as [K S1]. inversion A as [| |? ? ? ? Ak SP]; subst. rewrite Forall_forall in IH, Ak. split.
      + intro B. destruct (list_kind_dec n) as [N|N].
        { assert (X : list_at 0 (Node n o k c)) by (destruct B as [B|B]; [destruct N as [->| ->]; discriminate B|exact B]).
          pose proof (proj1 (list_count _ W) 0 X) as H. unfold fits. destruct N as [->| ->]; cbn [blocks map list_sum fold_right block_nodes par]; lia. }
        assert (B' : simple_block_node n = true) by (destruct B as [B|(lk & k' & E & _)]; [exact B|]; injection E as -> _ _ _; destruct lk; cbn in N; tauto).
        clear B N. unfold fits. rewrite ylen_node. destruct n; try discriminate B'; cbn [blocks par map list_sum fold_right block_nodes].
        * destruct S1 as (C & _). pose proof (one_eol_len _ _ C). lia.
        * destruct S1 as (O & C & k1 & k2 & k3 & -> & OM & E3). pose proof (one_eol_len _ _ C). rewrite (two_len _ _ _ O).
          assert (D : flat_map (fun d => match d with Node NDocument _ k2 _ => flat_map (blocks s) k2 | _ => [] end) (k1 ++ Node NDocument [] k2 [] :: k3) = flat_map (blocks s) k2).
          { rewrite flat_map_app. cbn [flat_map]. destruct OM as [->|(t & -> & (? & ? & ? & ->))]; destruct E3 as [->|(e & -> & _)]; cbn; rewrite ?app_nil_r; reflexivity. }
          cbn [app]. rewrite D, ylen_app, ylen_cons. rewrite Forall_forall in K.
          assert (IN : In (Node NDocument [] k2 []) (k1 ++ [Node NDocument [] k2 []] ++ k3)) by (apply in_or_app; right; left; reflexivity).
          pose proof (proj2 (IH _ IN (K _ IN) (Ak _ IN)) (root_node _ _ _ _)) as DD. cbn [docb] in DD. unfold list_sum in *. lia.
        * destruct S1 as (O & _). rewrite (one_len _ _ O). lia.
        * destruct S1 as (O & _ & I & _). rewrite (two_len _ _ _ O).
          assert (Q : List.length (flat_map (head_of s) k) <= len (yields k)); [|lia]. apply kids_length. intros t T.
          pose proof (item_len in_heading k t ltac:(intros []; cbn; congruence) K I T) as L1.
          assert (L2 : List.length (head_of s t) <= 1) by (destruct t as [x|x|m a b d]; [cbn; lia|cbn; lia|destruct m; cbn; lia]). lia.
        * destruct S1 as (C & k1 & k2 & k3 & -> & O2 & H3 & H). pose proof (one_eol_len _ _ C).
          assert (len o = 2) by (destruct H as [[H _]|[H _]]; exact (two_len _ _ _ H)).
          assert (O1 : opt_root NModifier k1) by (destruct H as [[_ H]|[_ ->]]; [exact H|left; reflexivity]).
          rewrite !flat_map_app. rewrite (trimmed_none s _ _ O1), (trimmed_none s _ _ O2) by discriminate. cbn [app]. rewrite !ylen_app.
          assert (S3 : spaced k3).
          { specialize (SP (or_intror eq_refl)). revert SP. clear. intros SP. induction k1 as [|t k1 IH]; [|apply IH, SP]. induction k2 as [|t k2 IH]; [exact SP|apply IH, SP]. }
          assert (Q : list_sum (map (fun p => S (pars_nodes p)) (flat_map (trimmed s) k3)) <= len (yields k3) + 1); [|unfold list_sum in *; lia].
          apply spaced_count; [exact S3|]. intros t T. destruct (hl_cases _ _ H3 T) as [R|(u & ->)]; [|split; [reflexivity|cbn; lia]].
          assert (Wt : wf t) by (rewrite Forall_forall in K; apply K; apply in_or_app; right; apply in_or_app; auto).
          destruct (trimmed_count t Wt R) as (l & E & Q). destruct R as (o' & b & c' & ->). rewrite E. cbn [map list_sum fold_right par]. lia.
        * destruct S1 as (_ & O & _). rewrite (one_len _ _ O). unfold image_of. cbn [map block_nodes fold_right]. lia.
        * destruct S1 as (-> & -> & N & F). cbn [List.length].
          assert (Q : List.length (flat_map (image_of s) k) + List.length k <= len (yields k)).
          { rewrite Forall_forall in K, F. revert K F. clear. intros K F. induction k as [|t k IH]; [cbn; lia|]. cbn [flat_map List.length]. rewrite app_length, ylen_cons.
            specialize (IH (fun t I => K t (or_intror I)) (fun t I => F t (or_intror I))). pose proof (K t (or_introl eq_refl)) as W. destruct (F t (or_introl eq_refl)) as (o & b & c & ->).
            destruct (wf_inv _ _ _ _ W) as [W' (_ & O & _ & t & d & -> & (o1 & k1 & c1 & ->) & _)]. inversion W' as [|? ? W1 _]; subst. destruct (wf_inv _ _ _ _ W1) as [_ (O1 & _)].
            cbn [image_of List.length]. rewrite ylen_node, ylen_cons, ylen_node, (one_len _ _ O), (one_len _ _ O1). lia. }
          lia.
        * destruct S1 as (-> & -> & I & _). pose proof (pars_count k K I). lia.
        * destruct S1 as (_ & _ & t & -> & _). cbn. lia.
      + intros (o' & k' & c' & E). injection E as -> -> -> ->. cbn [docb]. destruct S1 as (-> & -> & F). rewrite Forall_forall in F, K. rewrite ylen_node.
        assert (Q : list_sum (map block_nodes (flat_map (blocks s) k')) <= len (yields k') + 1); [|lia]. apply spaced_count; [apply SP; auto|]. intros t T. exact (proj1 (IH t T (K t T) (Ak t T)) (F t T)).
  Qed.
End Nodes.

Theorem nodes_bound : forall s y, deserialize s = Ok y -> doc_nodes y <= len (spec_tokens s) + 1.
Proof.
  intros s y H. rewrite deserialize_eq in H. injection H as <-. unfold document_of. destruct (parse_refines s) as [_ F]. rewrite (flips_length _ _ F). clear F.
  destruct (fparse_wf (spec_tokens s)) as [W (k1 & d & E & D & O)]. pose proof (fparse_airy (spec_tokens s)) as A. rewrite E in *. clear E.
  apply Forall_app in W, A. destruct W as [_ W], A as [_ A]. inversion W as [|? ? Wd _]; subst. inversion A as [|? ? Ad _]; subst.
  pose proof (proj2 (block_count s d Wd Ad) D) as B. unfold doc_nodes, doc_of, body_of. cbn [body]. rewrite flat_map_app, ylen_app, ylen_cons.
  assert (E : flat_map (docb s) k1 = []) by (destruct O as [->|(t & -> & (? & ? & ? & ->))]; reflexivity).
  unfold docb in E. rewrite E. cbn [app flat_map]. rewrite app_nil_r. unfold docb in B. lia.
Qed.
