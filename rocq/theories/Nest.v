(** The characters that nested blocks need. *)
From Coq Require Import String Lia.
From Verif Require Import Base Lexer LexSpec LexProofs LexFacts Ops Parser FParser Refine Refine2 Refine3
  Wf TokFacts Ast ToYamd Api StreamSpec StreamProofs StreamProofs2 TreeAst AstSpec AstProofs EscapeSpec Escapes Texts Spaced Grow GrowTree GrowFinal LineProofs NestSpec.
Open Scope list_scope.

Section Tree.
  Variable s : str.
  Notation one_each := (fun _ : char => 1).
  Notation Z ts := (sz one_each (ttexts s ts)).
  Notation wl := (wl s).
  Let P1 : forall c : char, 1 <= one_each c. Proof. intros. apply le_n. Qed.
  Let A1 : forall c, utf8_len c = 1 -> one_each c = 1. Proof. reflexivity. Qed.

  (** The characters without those of a line ending at the end, of which one is counted. *)
  Definition ends_line (ts : list token) : bool := match rev ts with t :: _ => is_eol_or_terminator t | [] => false end.
  Definition room (ts : list token) : nat := Z ts - (if ends_line ts then 1 else 0).

  Lemma room_le : forall ts, room ts <= Z ts. Proof. intros. unfold room. lia. Qed.
  Lemma room_ge : forall ts, Z ts <= room ts + 1. Proof. intros. unfold room. destruct (ends_line ts); lia. Qed.
  Lemma Z_pos : forall ts, linked s ts -> ts <> [] -> 1 <= Z ts.
  Proof. intros ts L N. pose proof (nonempty_sz one_each P1 s ts L). destruct ts; [congruence|]. cbn [length] in *. lia. Qed.
  Lemma room_ends : forall ts, linked s ts -> ends_line ts = true -> Z ts = room ts + 1.
  Proof. intros ts L E. unfold room. rewrite E. assert (1 <= Z ts); [|lia]. apply Z_pos; [exact L|]. intros ->. discriminate. Qed.
  Lemma ends_app : forall a b, b <> [] -> ends_line (a ++ b) = ends_line b.
  Proof. intros a b N. unfold ends_line. rewrite rev_app_distr. destruct (rev b) eqn:E; [|reflexivity]. apply (f_equal (@rev _)) in E. rewrite rev_involutive in E. cbn in E. congruence. Qed.
  Lemma room_right : forall a b, linked s b -> b <> [] -> room (a ++ b) = Z a + room b.
  Proof.
    intros a b L N. unfold room. rewrite ends_app by exact N. rewrite (Z_app one_each s). pose proof (Z_pos b L N). destruct (ends_line b); lia.
  Qed.
  Lemma room_left : forall a b, linked s (a ++ b) -> room a <= room (a ++ b).
  Proof.
    intros a b L. destruct b as [|t b]; [rewrite app_nil_r; lia|]. apply linked_app in L. destruct L as [_ L].
    rewrite room_right by (assumption || discriminate). pose proof (room_le a). lia.
  Qed.
  Lemma room_mid : forall a m b, linked s (a ++ m ++ b) -> m <> [] -> Z a + room m <= room (a ++ m ++ b).
  Proof.
    intros a m b L N. apply linked_app in L. destruct L as [_ L]. rewrite room_right; [|exact L|destruct m; [congruence|discriminate]].
    pose proof (room_left m b L). lia.
  Qed.
  Lemma yields_in : forall k t, In t k -> exists a b, yields k = a ++ yield t ++ b.
  Proof.
    intros k t H. apply in_split in H. destruct H as (k1 & k2 & ->). exists (yields k1), (yields k2). rewrite yields_app. reflexivity.
  Qed.
  (** In front of a token at the start of a line, a line ends. *)
  Lemma ends_before : forall a t b, linked s (a ++ t :: b) -> a <> [] -> col0 t = true -> ends_line a = true.
  Proof.
    intros a t b L N C. destruct a as [|u a _] using rev_ind; [congruence|]. rewrite <- app_assoc in L. apply linked_pair in L.
    destruct L as (_ & _ & _ & L). apply L in C. unfold ends_line. rewrite rev_app_distr. cbn [rev app]. unfold is_eol_or_terminator. destruct C as [-> | ->]; reflexivity.
  Qed.

  (** ** Lists *)

  Lemma marker_room : forall lvl lk o, linked s o -> marker lvl lk o -> room o = lvl + 2 /\ Z o = lvl + 2 /\ ends_line o = false /\ o <> [].
  Proof.
    intros lvl lk o L M. pose proof (marker_sz one_each A1 s lvl lk o L M) as E.
    assert (X : ends_line o = false /\ o <> []).
    { destruct M as (_ & m & sp & _ & Sp & H). unfold is_space_1 in Sp. apply andb_true_iff in Sp. destruct Sp as [Sp _]. apply kind_eqb_eq in Sp.
      destruct lvl; [subst o|destruct H as (i & -> & _)]; (split; [|discriminate]); cbn; unfold is_eol_or_terminator; rewrite Sp; reflexivity. }
    destruct X as [X N]. unfold room. rewrite X, E. repeat split; try assumption; lia.
  Qed.

  Lemma list_room : forall t, wl t ->
    (forall lvl d, list_at lvl t -> levels d (list_of s lvl t) -> d * d + 5 * d + 2 * d * lvl <= 2 * room (yield t) + 2)
    /\ (forall lvl lk, item_at lvl lk t -> lvl + 2 <= room (yield t) /\ yield t <> []
         /\ forall x l d, In (YItem x (Some l)) (item_of s lvl t) -> levels d l -> S d * S d + 5 * S d + 2 * S d * lvl <= 2 * room (yield t) + 2).
  Proof.
    induction t as [ts|ts|n o k c IH] using tree_ind'; intros [W L].
    - split; [intros lvl d (lk & k & H & _); discriminate|intros lvl lk (o & k & H & _); discriminate].
    - split; [intros lvl d (lk & k & H & _); discriminate|intros lvl lk (o & k & H & _); discriminate].
    - pose proof (kids s _ _ _ _ W L) as K. destruct (wf_inv _ _ _ _ W) as [_ S1]. rewrite Forall_forall in IH. split.
      + intros lvl d (lk & k' & E & N & F) D. injection E as -> -> -> ->. rewrite list_of_eq in D. rewrite Forall_forall in F, K.
        assert (Y : forall t, In t k' -> room (yield t) <= room (yield (Node (list_kind_node lk) [] k' []))).
        { intros t T. destruct (yields_in _ _ T) as (a & b & E). change (yield (Node (list_kind_node lk) [] k' [])) with (yields k' ++ []). rewrite app_nil_r, E.
          assert (L' : linked s (a ++ yield t ++ b)) by (rewrite <- E; unfold tlinked in L; change (linked s (yields k' ++ [])) in L; rewrite app_nil_r in L; exact L).
          destruct (IH t T (K t T)) as [_ I2]. destruct (I2 lvl lk (F t T)) as (_ & NE & _). pose proof (room_mid a (yield t) b L' NE). lia. }
        inversion D as [? ? ?|d' ? ? ? x l Hx Dl]; subst.
        * destruct k' as [|t k']; [congruence|]. pose proof (Y t (or_introl eq_refl)). destruct (IH t (or_introl eq_refl) (K t (or_introl eq_refl))) as [_ I2].
          destruct (I2 lvl lk (F t (or_introl eq_refl))) as (I3 & _). lia.
        * apply in_flat_map in Hx. destruct Hx as (t & T & Hx). pose proof (Y t T). destruct (IH t T (K t T)) as [_ I2].
          destruct (I2 lvl lk (F t T)) as (_ & _ & I3). specialize (I3 x l d' Hx Dl). lia.
      + intros lvl lk (o' & k' & E & M). injection E as -> -> -> ->. destruct S1 as (_ & lvl' & lk' & p & M' & R & H).
        destruct (parts s _ _ _ _ L) as (Lo & Lk & _). destruct (marker_room _ _ _ Lo M) as (Ro & Zo & Eo & No). destruct (marker_room _ _ _ Lo M') as (_ & Zo' & _). assert (lvl' = lvl) by lia. subst lvl'.
        change (yield (Node NListItem o' k' [])) with (o' ++ yields k' ++ []) in *. unfold tlinked in L. change (linked s (o' ++ yields k' ++ [])) in L. rewrite app_nil_r in *.
        split; [pose proof (room_left o' (yields k') L); lia|]. split; [destruct o'; [congruence|discriminate]|].
        intros x l d Hx Dl. destruct H as [->|(y & -> & Ly)]; cbn [item_of] in Hx; (destruct Hx as [Hx|[]]); [discriminate|]. injection Hx as _ Hl. subst l.
        inversion K as [|? ? Kp K']; subst. inversion K' as [|? ? Ky _]; subst.
        destruct (IH y (or_intror (or_introl eq_refl)) Ky) as [I1 _]. specialize (I1 (S lvl) d Ly Dl).
        cbn [yields flat_map] in *. rewrite app_nil_r in *.
        assert (C : exists u r, yield y = u :: r /\ col0 u = true).
        { destruct Ky as [Wy _]. pose proof Ly as (lk2 & ky & -> & Ny & Fy).
          assert (X : nth_is 0 col0 ([] ++ yields ky ++ []) = true) by (apply (starts_col0 (list_kind_node lk2)); [exact Wy|destruct lk2; reflexivity]).
          change (yield (Node (list_kind_node lk2) [] ky [])) with ([] ++ yields ky ++ []). destruct ([] ++ yields ky ++ []) as [|u r]; [discriminate X|]. eauto. }
        destruct C as (u & r & Eu & Cu).
        assert (Np : yield p <> []).
        { intros Ep. rewrite Ep, Eu in L. cbn [app] in L. rewrite (ends_before o' u r L No Cu) in Eo. discriminate. }
        apply linked_app in L. destruct L as [_ L]. pose proof L as L'. apply linked_app in L'. destruct L' as [Lp Lyy].
        rewrite room_right; [|exact L|destruct (yield p); [congruence|discriminate]]. rewrite room_right; [|exact Lyy|rewrite Eu; discriminate].
        pose proof (Z_pos _ Lp Np). lia.
  Qed.

  (** ** Blocks *)

  Lemma room_in : forall k t, linked s (yields k) -> In t k -> room (yield t) <= room (yields k).
  Proof.
    intros k t L H. destruct (yields_in _ _ H) as (a & b & E). rewrite E in *. destruct (yield t) as [|u r] eqn:Y; [apply Nat.le_0_l|].
    pose proof (room_mid a (u :: r) b L ltac:(discriminate)). lia.
  Qed.
  Lemma one_eol_split : forall f ts, one_eol f ts -> exists t r, ts = t :: r /\ f t = true.
  Proof. intros f ts (t & F & [->|(e & -> & _)]); eauto. Qed.
  Lemma collapsible_room : forall o k cl, wl (Node NCollapsible o k cl) ->
    5 <= room (yield (Node NCollapsible o k cl))
    /\ exists k1 k2 k3, k = k1 ++ [Node NDocument [] k2 []] ++ k3 /\ opt_root NModifier k1 /\ (k3 = [] \/ exists e, k3 = [Skip [e]] /\ is_eol e = true)
       /\ (yields k2 <> [] -> 6 + room (yields k2) <= room (yield (Node NCollapsible o k cl))).
  Proof.
    intros o k cl [W L]. destruct (wf_inv _ _ _ _ W) as [_ Sh]. destruct Sh as (O & C & k1 & k2 & k3 & E & K1 & K3).
    destruct (one_eol_split _ _ C) as (ce & cr & -> & Ce).
    unfold tlinked in L. cbn [yield] in *. fold (yields k) in *. rewrite app_assoc in *. set (pre := o ++ yields k) in *.
    pose proof L as L0. apply linked_app in L0. destruct L0 as [Lp Lc].
    assert (Zo : 3 <= Z o).
    { destruct O as (t & u & -> & Ht & Hu). apply linked_app in Lp. destruct Lp as [Lo _]. destruct Lo as [Fo _]. inversion Fo as [|? ? F1 Fo']; subst. inversion Fo' as [|? ? F2 _]; subst.
      unfold ttexts. cbn [flat_map]. rewrite app_nil_r, sz_app, (x_collapsible_start s t F1 Ht). pose proof (tok_nonempty s u F2) as N.
      destruct (ttext s u) as [|x r]; [congruence|]. rewrite !sz_cons. cbn. lia. }
    assert (No : o <> []) by (destruct O as (t & u & -> & _); discriminate).
    assert (Np : pre <> []) by (unfold pre; destruct o; [congruence|discriminate]).
    assert (Ep : ends_line pre = true).
    { apply (ends_before pre ce cr L Np). unfold is_collapsible_end in Ce. apply andb_true_iff in Ce. apply Ce. }
    pose proof (room_ends pre Lp Ep) as Zp.
    assert (Rc : 2 <= room (ce :: cr)).
    { change (ce :: cr) with ([ce] ++ cr) in *. pose proof (room_left [ce] cr Lc) as X. enough (room [ce] = 2) by lia. destruct Lc as [Fc _]. inversion Fc as [|? ? F1 _]; subst.
      unfold room. unfold ttexts. cbn [flat_map]. rewrite app_nil_r, (x_collapsible_end s ce F1 Ce).
      unfold is_collapsible_end in Ce. apply andb_true_iff in Ce. destruct Ce as [Ce _]. apply kind_eqb_eq in Ce. unfold ends_line. cbn [rev app]. unfold is_eol_or_terminator. rewrite Ce. reflexivity. }
    pose proof (room_right pre (ce :: cr) Lc ltac:(discriminate)) as R. split.
    - assert (Z o <= Z pre) by (unfold pre; rewrite (Z_app one_each s); lia). lia.
    - exists k1, k2, k3. split; [rewrite E, <- app_assoc; reflexivity|]. split; [exact K1|]. split; [exact K3|]. intros N2.
      assert (X : pre = (o ++ yields k1) ++ yields k2 ++ yields k3) by (unfold pre; rewrite E, !yields_app; cbn [yields flat_map yield app]; rewrite !app_nil_r, <- !app_assoc; reflexivity).
      assert (Z o + room (yields k2) <= room pre).
      { rewrite X in *. pose proof (room_mid _ _ _ Lp N2) as Y. rewrite (Z_app one_each s) in Y. lia. }
      lia.
  Qed.

  Lemma block_room : forall t, wl t -> 
      (block t -> forall n c d, In n (blocks s t) -> nest c d n -> 12 * c + d * d + 5 * d <= 2 * room (yield t) + 2)
      /\ (forall k, t = Node NDocument [] k [] -> forall n c d, In n (flat_map (blocks s) k) -> nest c d n ->
            12 * c + d * d + 5 * d <= 2 * room (yields k) + 2).
  Proof.
    induction t as [ts|ts|m o k cl IH] using tree_ind'; intros [W L]; [split; [intros _ n c d []|discriminate]|split; [intros _ n c d []|discriminate]|].
    pose proof (kids s _ _ _ _ W L) as K. destruct (wf_inv _ _ _ _ W) as [_ S1]. rewrite Forall_forall in IH, K. split.
    - intros B n c d Hn D. destruct D as [n|d l D|tt b|c d tt b n' Hb D]; [lia| | |].
      + assert (LA : list_at 0 (Node m o k cl)).
        { destruct B as [B|B]; [|exact B]. destruct m; try discriminate B; cbn [blocks] in Hn; try contradiction; (destruct Hn as [Hn|[]]); try discriminate Hn. }
        assert (E : l = list_of s 0 (Node m o k cl)) by (destruct m; cbn [blocks] in Hn; try contradiction; (destruct Hn as [Hn|[]]); try discriminate Hn; injection Hn as <-; reflexivity).
        subst l. destruct (list_room (Node m o k cl) (conj W L)) as [I1 _]. specialize (I1 0 d LA D). lia.
      + assert (m = NCollapsible) by (destruct m; cbn [blocks] in Hn; try contradiction; (destruct Hn as [Hn|[]]); try discriminate Hn; reflexivity). subst m.
        destruct (collapsible_room o k cl (conj W L)) as [R _]. lia.
      + assert (m = NCollapsible) by (destruct m; cbn [blocks] in Hn; try contradiction; (destruct Hn as [Hn|[]]); try discriminate Hn; reflexivity). subst m.
        destruct (collapsible_room o k cl (conj W L)) as [R5 (k1 & k2 & k3 & E & K1 & K3 & R)].
        assert (Hd : In (Node NDocument [] k2 []) k) by (rewrite E; apply in_or_app; right; left; reflexivity).
        cbn [blocks] in Hn. destruct Hn as [Hn|[]]. injection Hn as _ <-. fold (body_of s k) in Hb.
        assert (Bo : body_of s k = flat_map (blocks s) k2).
        { rewrite E. unfold body_of. rewrite !flat_map_app. cbn [flat_map]. destruct K1 as [->|(x & -> & (o1 & b1 & c1 & ->))]; destruct K3 as [->|(e & -> & _)]; cbn [flat_map app]; rewrite ?app_nil_r; reflexivity. }
        rewrite Bo in Hb. destruct (IH _ Hd (K _ Hd)) as [_ I2]. specialize (I2 k2 eq_refl n' c d Hb D).
        destruct (yields k2) as [|u r] eqn:Y.
        * change (room []) with 0 in I2. pose proof (Nat.le_0_l (d * d)). assert (c = 0 /\ d = 0) as [-> ->] by lia. lia.
        * specialize (R ltac:(discriminate)). lia.
    - intros k' E n c d Hn D. injection E as -> -> -> ->. apply in_flat_map in Hn. destruct Hn as (t & T & Hn).
      destruct S1 as (_ & _ & Bk). rewrite Forall_forall in Bk. destruct (IH t T (K t T)) as [I1 _]. specialize (I1 (Bk t T) n c d Hn D).
      assert (Lk : linked s (yields k')) by (unfold tlinked in L; cbn [yield] in L; fold (yields k') in L; rewrite app_nil_r in L; exact L).
      pose proof (room_in k' t Lk T). lia.
  Qed.
End Tree.

Lemma nest_unescaped : forall s y n c d, deserialize s = Ok y -> In n (body y) -> nest c d n -> 12 * c + d * d + 5 * d <= 2 * List.length (unescape s) + 2.
Proof.
  intros s y n c d H Hn D. rewrite deserialize_eq in H. injection H as <-. destruct (fparse_wf (spec_tokens s)) as [W T].
  pose proof (flips_ttexts s _ _ (proj2 (parse_refines s))) as E. rewrite spec_texts in E. rewrite <- E, <- sz_chars.
  unfold document_of, doc_of in Hn. cbn [body] in Hn.
  pose proof (fparse_linked s) as L.
  destruct T as (k1 & dd & Ek & (o & k & cc & ->) & O). rewrite Ek in *. clear Ek E.
  unfold body_of in Hn. rewrite flat_map_app in Hn. cbn [flat_map] in Hn. rewrite app_nil_r in Hn. apply in_app_or in Hn.
  destruct Hn as [Hn|Hn].
  - exfalso. destruct O as [->|(m & -> & (o' & k' & c' & ->))]; contradiction.
  - rewrite yields_app in *. pose proof L as L'. apply linked_app in L'. destruct L' as [_ L']. cbn [yields flat_map] in *. rewrite app_nil_r in *.
    apply Forall_app in W. destruct W as [_ W]. inversion W as [|? ? W1 _]; subst. destruct (wf_inv _ _ _ _ W1) as [_ Sh]. destruct Sh as (-> & -> & _).
    destruct (block_room s (Node NDocument [] k []) (conj W1 L')) as [_ I]. specialize (I k eq_refl n c d Hn D).
    rewrite ttexts_app, sz_app. pose proof (room_le s (yields k)). cbn [yield app] in *. fold (yields k). rewrite app_nil_r. lia.
Qed.
Lemma nest_source : forall s y n c d, deserialize s = Ok y -> In n (body y) -> nest c d n -> 12 * c + d * d + 5 * d <= 2 * List.length s + 2.
Proof.
  intros s y n c d H Hn D. pose proof (nest_unescaped s y n c d H Hn D). pose proof (unescape_sz (fun _ => 1) s) as B. rewrite !sz_chars in B. lia.
Qed.
