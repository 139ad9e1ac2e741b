(** The lexer state machine produces exactly the pieces of the lexical grammar of LexSpec.v. *)
From Verif Require Import Base Lexer LexSpec.

Lemma char_eqb_eq : forall a b, char_eqb a b = true <-> a = b.
Proof. intros; unfold char_eqb; apply N.eqb_eq. Qed.
Lemma char_eqb_refl : forall a, char_eqb a a = true.
Proof. intros; unfold char_eqb; apply N.eqb_refl. Qed.
Lemma kind_eqb_eq : forall a b, kind_eqb a b = true <-> a = b.
Proof. intros; unfold kind_eqb; destruct (kind_eq_dec a b); split; congruence. Qed.
Lemma kind_eqb_neq : forall a b, kind_eqb a b = false <-> a <> b.
Proof. intros; unfold kind_eqb; destruct (kind_eq_dec a b); split; congruence. Qed.
Lemma kind_eqb_refl : forall a, kind_eqb a a = true.
Proof. intros; apply kind_eqb_eq; reflexivity. Qed.

Lemma byte_len_app : forall a b, byte_len (a ++ b) = byte_len a + byte_len b.
Proof. induction a; simpl; intros; [reflexivity|rewrite IHa; lia]. Qed.

Lemma utf8_len_pos : forall c, 1 <= utf8_len c.
Proof.
  intros; unfold utf8_len.
  destruct (c <? 128)%N; [lia|]. destruct (c <? 2048)%N; [lia|]. destruct (c <? 65536)%N; lia.
Qed.

Lemma char_indices_app : forall a b o,
  char_indices_from o (a ++ b) = char_indices_from o a ++ char_indices_from (o + byte_len a) b.
Proof.
  induction a; simpl; intros.
  - rewrite Nat.add_0_r; reflexivity.
  - rewrite IHa, Nat.add_assoc; reflexivity.
Qed.

(** ** The grammar *)

Lemma lit_run_app : forall s a b, lit_run s = (a, b) -> s = a ++ b.
Proof.
  induction s as [|c s IH]; simpl; intros a b H.
  - injection H as <- <-; reflexivity.
  - destruct (stops_literal c s).
    + injection H as <- <-; reflexivity.
    + destruct (lit_run s) as [a' b']. injection H as <- <-. simpl. f_equal. apply IH; reflexivity.
Qed.

Lemma char_run_app : forall c s a b, char_run c s = (a, b) -> s = a ++ b.
Proof.
  induction s as [|d s IH]; simpl; intros a b H.
  - injection H as <- <-; reflexivity.
  - destruct (char_eqb d c).
    + destruct (char_run c s) as [a' b']. injection H as <- <-. simpl. f_equal. apply IH; reflexivity.
    + injection H as <- <-; reflexivity.
Qed.

Lemma pair_kind_app : forall c s k t, pair_kind c s = Some (k, t) ->
  c :: s = t ++ skipn (length t - 1) s /\ 1 <= length t <= 2.
Proof.
  unfold pair_kind; intros c s k t H.
  destruct (char_eqb c c_nl).
  - injection H as <- <-. simpl. auto.
  - destruct s as [|d s]; [discriminate|].
    destruct (char_eqb c c_cr && char_eqb d c_nl);
      [|destruct (char_eqb c c_lcurly && char_eqb d c_percent);
        [|destruct (char_eqb c c_percent && char_eqb d c_rcurly); [|discriminate]]];
      injection H as <- <-; simpl; auto.
Qed.

Lemma scan_one_app : forall s p r, scan_one s = Some (p, r) -> s = p_src p ++ r /\ p_text p <> [].
Proof.
  unfold scan_one; intros s p r H.
  destruct s as [|c s]; [discriminate|].
  destruct (pair_kind c s) as [[k t]|] eqn:E.
  - injection H as <- <-. unfold p_src; simpl. apply pair_kind_app in E. destruct E as [E1 E2].
    split; [exact E1|]. simpl. intro; subst t; simpl in E2; lia.
  - destruct (char_eqb c c_bslash) eqn:E1.
    + destruct s as [|d s]; [discriminate|]. destruct (lit_run s) as [a b] eqn:E2.
      injection H as <- <-. apply char_eqb_eq in E1; subst c. apply lit_run_app in E2; subst s.
      split; [reflexivity|discriminate].
    + destruct (run_kind c).
      * destruct (char_run c s) as [a b] eqn:E2. injection H as <- <-. apply char_run_app in E2; subst s.
        split; [reflexivity|discriminate].
      * destruct (single_kind c).
        -- injection H as <- <-. split; [reflexivity|discriminate].
        -- destruct (lit_run s) as [a b] eqn:E2. injection H as <- <-. apply lit_run_app in E2; subst s.
           split; [reflexivity|discriminate].
Qed.

Lemma scan_one_len : forall s p r, scan_one s = Some (p, r) -> length r < length s.
Proof.
  intros s p r H; apply scan_one_app in H; destruct H as [-> H].
  rewrite app_length. unfold p_src. rewrite app_length.
  destruct (p_text p); [congruence|]. simpl; lia.
Qed.

Lemma scan_fuel : forall n m s, length s <= n -> length s <= m -> scan n s = scan m s.
Proof.
  induction n; intros m s Hn Hm.
  - destruct s; [|simpl in Hn; lia]. destruct m; reflexivity.
  - destruct m.
    + destruct s; [|simpl in Hm; lia]. reflexivity.
    + simpl. destruct (scan_one s) as [[p r]|] eqn:E; [|reflexivity].
      apply scan_one_len in E. f_equal. apply IHn; lia.
Qed.

Lemma raw_unfold : forall s,
  raw_pieces s = match scan_one s with None => [] | Some (p, r) => p :: raw_pieces r end.
Proof.
  intros; unfold raw_pieces. destruct s as [|c s].
  - reflexivity.
  - change (length (c :: s)) with (S (length s)). cbn [scan].
    destruct (scan_one (c :: s)) as [[p r]|] eqn:E; [|reflexivity].
    apply scan_one_len in E. simpl in E. f_equal. apply scan_fuel; lia.
Qed.

(** Induction along the pieces of a text. *)
Lemma raw_ind : forall P : str -> Prop,
  (forall s, scan_one s = None -> P s) ->
  (forall s p r, scan_one s = Some (p, r) -> P r -> P s) ->
  forall s, P s.
Proof.
  intros P H0 H1 s. remember (length s) as n eqn:Hn. assert (Hle : length s <= n) by lia. clear Hn.
  revert s Hle. induction n; intros s Hle.
  - apply H0. destruct s; [reflexivity|simpl in Hle; lia].
  - destruct (scan_one s) as [[p r]|] eqn:E.
    + eapply H1; [exact E|]. apply IHn. apply scan_one_len in E. lia.
    + apply H0; exact E.
Qed.

(** ** Tokens still to come *)

(** Merging on tokens, with the pending token of the lexer. *)
Fixpoint tmerge (pend : option token) (l : list token) : list token :=
  match l with
  | [] => match pend with None => [] | Some t => [t] end
  | u :: l' =>
      match pend with
      | None => tmerge (Some u) l'
      | Some t =>
          if kind_eqb (kind t) Eol && kind_eqb (kind u) Eol
          then tmerge (Some (to_token Terminator (t_pos t) (tlen t + tlen u))) l'
          else t :: tmerge (Some u) l'
      end
  end.

(** What the rest [s] of the input (at byte offset [o]) will give. *)
Definition tail (o : nat) (s : str) (lx : lexer) : list token :=
  let col := column (l_position lx) in
  let r := row (l_position lx) in
  match literal_start lx with
  | None => annotate o col r (raw_pieces s)
  | Some sp =>
      let (a, b) := lit_run s in
      mk_token Literal (byte_index sp) (o + byte_len a) sp (l_escaped lx)
      :: annotate (o + byte_len a) (col + length a) r (raw_pieces b)
  end.

Definition cont (o : nat) (s : str) (lx : lexer) : list token :=
  queue lx ++ tmerge (l_token lx) (tail o s lx).

Record inv (o : nat) (s : str) (lx : lexer) : Prop := {
  inv_iter : iter lx = char_indices_from o s;
  inv_len : len lx = o + byte_len s;
  inv_esc : literal_start lx = None -> l_escaped lx = false }.

Lemma tmerge_cons : forall t u l, (kind t = Eol -> kind u <> Eol) ->
  tmerge (Some t) (u :: l) = t :: tmerge (Some u) l.
Proof.
  intros t u l H; simpl. destruct (kind_eqb (kind t) Eol) eqn:E1; [|reflexivity].
  destruct (kind_eqb (kind u) Eol) eqn:E2; [|reflexivity].
  apply kind_eqb_eq in E1, E2. elim (H E1 E2).
Qed.

(** Closing the pending literal in front of a character that ends it. *)
Lemma emit_literal_cont : forall o s lx,
  inv o s lx -> (literal_start lx = None \/ lit_run s = ([], s)) ->
  inv o s (emit_literal_if_started o lx)
  /\ literal_start (emit_literal_if_started o lx) = None
  /\ l_position (emit_literal_if_started o lx) = l_position lx
  /\ iter (emit_literal_if_started o lx) = iter lx
  /\ cont o s (emit_literal_if_started o lx) = cont o s lx.
Proof.
  intros o s lx I H. unfold emit_literal_if_started.
  destruct (literal_start lx) as [sp|] eqn:L.
  - destruct H as [H|H]; [discriminate|].
    unfold cont, tail; simpl. rewrite L, H. simpl. rewrite !Nat.add_0_r.
    split; [|split; [|split; [|split]]]; try reflexivity.
    + destruct I as [I1 I2 I3]. constructor; simpl; auto.
    + destruct (l_token lx) as [t|].
      * simpl. rewrite andb_false_r. rewrite <- app_assoc; reflexivity.
      * reflexivity.
  - rewrite L. auto.
Qed.

(** Emitting a token that is not a line ending. *)
Lemma replace_token_cont : forall t lx l, kind t <> Eol ->
  queue (replace_token t lx) ++ tmerge (l_token (replace_token t lx)) l
  = queue lx ++ tmerge (l_token lx) (t :: l).
Proof.
  intros t lx l H. unfold replace_token; simpl.
  destruct (l_token lx) as [u|].
  - apply kind_eqb_neq in H. rewrite H, andb_false_r. rewrite <- app_assoc; reflexivity.
  - reflexivity.
Qed.

Definition position_at (o : nat) (lx : lexer) : position :=
  mk_pos o (column (l_position lx)) (row (l_position lx)).

(** One turn of the loop of [advance]. *)
Definition turn (o : nat) (c : char) (s : str) (lx : lexer) : lexer :=
  parse_char (position_at o lx) c
    (set_iter (char_indices_from (o + utf8_len c) s) (bump false o c (l_position lx)) lx).

Definition turn_ok (o : nat) (c : char) (s : str) (lx lx2 : lexer) : Prop :=
  exists o2 s2, inv o2 s2 lx2 /\ length s2 <= length s /\ cont o2 s2 lx2 = cont o (c :: s) lx.

Lemma lit_run_stop : forall c s, stops_literal c s = true -> lit_run (c :: s) = ([], c :: s).
Proof. intros c s H; simpl; rewrite H; reflexivity. Qed.

(** [emit] of the token for a piece [mk_piece k t false] that is the first one of the rest.
    [lx] still has the text before the piece, [lx1] is the state after its characters are taken. *)
Lemma emit_ok : forall o c s lx lx1 k t r,
  inv o (c :: s) lx ->
  (literal_start lx = None \/ stops_literal c s = true) ->
  scan_one (c :: s) = Some (mk_piece k t false, r) ->
  kind_rows k = 0 ->
  literal_start lx1 = literal_start lx -> len lx1 = len lx -> l_escaped lx1 = l_escaped lx ->
  queue lx1 = queue lx -> l_token lx1 = l_token lx ->
  column (l_position lx1) = column (l_position lx) + length t ->
  row (l_position lx1) = row (l_position lx) ->
  iter lx1 = char_indices_from (o + byte_len t) r ->
  turn_ok o c s lx (emit (token_new k o (o + byte_len t) (position_at o lx)) lx1).
Proof.
  intros o c s lx lx1 k t r I H Hs Hk E1 E2 E3 E4 E5 E6 E7 E8.
  pose proof (scan_one_app _ _ _ Hs) as [Happ Hne]. unfold p_src in Happ; simpl in Happ, Hne.
  pose proof (scan_one_len _ _ _ Hs) as Hlen. simpl in Hlen.
  assert (H' : literal_start lx = None \/ lit_run (c :: s) = ([], c :: s)).
  { destruct H as [H|H]; [left; exact H|right; apply lit_run_stop; exact H]. }
  destruct (emit_literal_cont o (c :: s) lx I H') as (I1 & L1 & P1 & T1 & C1).
  exists (o + byte_len t), r.
  unfold emit. simpl (byte_index _).
  set (lz := emit_literal_if_started o lx1).
  assert (Z : literal_start lz = None /\ len lz = len lx /\ l_escaped lz = l_escaped (emit_literal_if_started o lx)
              /\ queue lz = queue (emit_literal_if_started o lx)
              /\ l_token lz = l_token (emit_literal_if_started o lx)
              /\ l_position lz = l_position lx1 /\ iter lz = iter lx1).
  { unfold lz, emit_literal_if_started. rewrite E1.
    destruct (literal_start lx) eqn:L; simpl; rewrite ?E1, ?E2, ?E3, ?E4, ?E5, ?L;
      repeat split; auto. }
  destruct Z as (Z1 & Z2 & Z3 & Z4 & Z5 & Z6 & Z7).
  split; [|split].
  - constructor; simpl.
    + rewrite Z7; exact E8.
    + rewrite Z2. destruct I as [_ I2 _]. rewrite I2, Happ, byte_len_app. lia.
    + intros _. rewrite Z3. destruct I1 as [_ _ I3]. auto.
  - lia.
  - rewrite <- C1. unfold cont.
    rewrite replace_token_cont by (simpl; intro; subst k; discriminate).
    rewrite Z4, Z5. f_equal. f_equal.
    unfold tail. rewrite L1. cbn [literal_start replace_token]. rewrite Z1.
    rewrite (raw_unfold (c :: s)), Hs. cbn [annotate p_kind p_esc p_text]. rewrite Hk.
    rewrite !Nat.add_0_r. cbn [Nat.eqb l_position replace_token]. rewrite P1, Z6, E6, E7.
    reflexivity.
Qed.

Lemma char_indices_hd : forall o c s it, it = char_indices_from o (c :: s) ->
  it = (o, c) :: char_indices_from (o + utf8_len c) s.
Proof. intros; subst; reflexivity. Qed.

Lemma take_loop_spec : forall c s o p a b, (c < 128)%N -> c <> c_bslash ->
  char_run c s = (a, b) -> S (byte_index p) = o ->
  take_loop c (char_indices_from o s) p
  = (char_indices_from (o + byte_len a) b,
     mk_pos (o + byte_len a - 1) (column p + length a) (row p)).
Proof.
  induction s as [|d s IH]; intros o p a b Hc Hb H Ho; simpl in H.
  - injection H as <- <-. simpl. f_equal. rewrite !Nat.add_0_r. destruct p; simpl in *. f_equal; lia.
  - simpl. destruct (char_eqb d c) eqn:E.
    + destruct (char_run c s) as [a' b'] eqn:R. injection H as <- <-.
      apply char_eqb_eq in E; subst d.
      assert (Hu : utf8_len c = 1).
      { unfold utf8_len. apply N.ltb_lt in Hc. rewrite Hc. reflexivity. }
      assert (Hn : char_eqb c c_bslash = false).
      { destruct (char_eqb c c_bslash) eqn:E; [apply char_eqb_eq in E; congruence|reflexivity]. }
      rewrite (IH (o + utf8_len c) _ a' b' Hc Hb eq_refl).
      * unfold bump. rewrite Hn. simpl. rewrite Hu. f_equal; [f_equal; lia|f_equal; lia].
      * unfold bump. rewrite Hn. simpl. lia.
    + injection H as <- <-. simpl. rewrite !Nat.add_0_r. f_equal. destruct p; simpl in *; f_equal; lia.
Qed.

Ltac char_cases :=
  repeat match goal with
  | H : char_eqb ?c ?d = true |- _ => apply char_eqb_eq in H; subst c
  end.

Lemma run_kind_facts : forall c k, run_kind c = Some k ->
  (c < 128)%N /\ c <> c_bslash /\ c <> c_nl /\ kind_rows k = 0 /\ utf8_len c = 1.
Proof.
  intros c k H. unfold run_kind in H.
  repeat match type of H with
  | (if char_eqb c ?d then _ else _) = _ =>
      destruct (char_eqb c d) eqn:?;
        [char_cases; injection H as <-; repeat split; reflexivity || discriminate|]
  end. discriminate.
Qed.

Lemma single_kind_facts : forall c k, single_kind c = Some k ->
  c <> c_bslash /\ kind_rows k = 0 /\ utf8_len c = 1 /\ run_kind c = None.
Proof.
  intros c k H. unfold single_kind in H.
  repeat match type of H with
  | (if char_eqb c ?d then _ else _) = _ =>
      destruct (char_eqb c d) eqn:?;
        [char_cases; injection H as <-; repeat split; reflexivity || discriminate|]
  end. discriminate.
Qed.

(** [take_while] on a run character. *)
Lemma take_while_ok : forall o c s lx k,
  inv o (c :: s) lx ->
  run_kind c = Some k -> pair_kind c s = None ->
  (literal_start lx = None \/ c <> c_space) ->
  turn_ok o c s lx
    (take_while c k (position_at o lx)
       (set_iter (char_indices_from (o + utf8_len c) s) (bump false o c (l_position lx)) lx)).
Proof.
  intros o c s lx k I Hk Hp Hl.
  destruct (run_kind_facts _ _ Hk) as (F1 & F2 & F3 & F4 & F5).
  assert (Hn : char_eqb c c_bslash = false).
  { destruct (char_eqb c c_bslash) eqn:E; [apply char_eqb_eq in E; congruence|reflexivity]. }
  destruct (char_run c s) as [a b] eqn:R.
  unfold take_while. cbn [iter set_iter l_position].
  rewrite (take_loop_spec c s _ _ a b F1 F2 R) by (unfold bump; rewrite Hn; simpl; lia).
  assert (Hs : scan_one (c :: s) = Some (mk_piece k (c :: a) false, b)).
  { unfold scan_one. rewrite Hp, Hn, Hk, R. reflexivity. }
  replace (token_new k (byte_index (position_at o lx)) _ (position_at o lx))
    with (token_new k o (o + byte_len (c :: a)) (position_at o lx)).
  2:{ simpl. f_equal. lia. }
  eapply emit_ok; eauto.
  - destruct Hl as [Hl|Hl]; [left; exact Hl|right].
    unfold stops_literal. rewrite Hk, Hn. simpl.
    destruct (char_eqb c c_space) eqn:E; [apply char_eqb_eq in E; congruence|].
    destruct (is_some (pair_kind c s)); reflexivity.
  - simpl. unfold bump. rewrite Hn. simpl. lia.
  - simpl. unfold bump. rewrite Hn. reflexivity.
  - simpl. f_equal. lia.
Qed.

(** A token of one character. *)
Lemma single_ok : forall o c s lx k,
  inv o (c :: s) lx ->
  single_kind c = Some k -> pair_kind c s = None ->
  turn_ok o c s lx
    (emit (to_token k (position_at o lx) 1)
       (set_iter (char_indices_from (o + utf8_len c) s) (bump false o c (l_position lx)) lx)).
Proof.
  intros o c s lx k I Hk Hp.
  destruct (single_kind_facts _ _ Hk) as (F1 & F2 & F3 & F4).
  assert (Hn : char_eqb c c_bslash = false).
  { destruct (char_eqb c c_bslash) eqn:E; [apply char_eqb_eq in E; congruence|reflexivity]. }
  assert (Hs : scan_one (c :: s) = Some (mk_piece k [c] false, s)).
  { unfold scan_one. rewrite Hp, Hn, F4, Hk. reflexivity. }
  unfold to_token. replace 1 with (byte_len [c]) by (simpl; lia).
  eapply emit_ok; eauto.
  - right. unfold stops_literal. rewrite Hk. simpl. rewrite orb_true_r; reflexivity.
  - simpl. unfold bump. rewrite Hn. reflexivity.
  - simpl. unfold bump. rewrite Hn. reflexivity.
  - simpl. f_equal. lia.
Qed.

(** A token of two characters. *)
Lemma double_ok : forall o c d s lx k,
  inv o (c :: d :: s) lx ->
  pair_kind c (d :: s) = Some (k, [c; d]) -> k <> Eol -> kind_rows k = 0 ->
  c <> c_bslash -> d <> c_bslash -> utf8_len c = 1 -> utf8_len d = 1 ->
  turn_ok o c (d :: s) lx
    (emit (to_token k (position_at o lx) 2)
       (set_iter (char_indices_from (o + 2) s)
          (bump false (o + 1) d (bump false o c (l_position lx))) lx)).
Proof.
  intros o c d s lx k I Hp Hk Hr Hc Hd Lc Ld.
  assert (Hnc : char_eqb c c_bslash = false).
  { destruct (char_eqb c c_bslash) eqn:E; [apply char_eqb_eq in E; congruence|reflexivity]. }
  assert (Hnd : char_eqb d c_bslash = false).
  { destruct (char_eqb d c_bslash) eqn:E; [apply char_eqb_eq in E; congruence|reflexivity]. }
  assert (Hs : scan_one (c :: d :: s) = Some (mk_piece k [c; d] false, s)).
  { unfold scan_one. rewrite Hp. reflexivity. }
  unfold to_token. replace 2 with (byte_len [c; d]) by (simpl; lia).
  eapply emit_ok; eauto.
  - right. unfold stops_literal. rewrite Hp. reflexivity.
  - simpl. unfold bump. rewrite Hnc, Hnd. simpl. lia.
  - simpl. unfold bump. rewrite Hnc, Hnd. reflexivity.
Qed.

(** Line endings. *)
Lemma eol_ok : forall o c s lx t r it p,
  inv o (c :: s) lx ->
  pair_kind c s = Some (Eol, t) -> scan_one (c :: s) = Some (mk_piece Eol t false, r) ->
  it = char_indices_from (o + byte_len t) r -> row p = row (l_position lx) ->
  turn_ok o c s lx (eol (position_at o lx) (byte_len t) (set_iter it p lx)).
Proof.
  intros o c s lx t r it p I Hp Hs Hit Hrow.
  pose proof (scan_one_app _ _ _ Hs) as [Happ Hne]. unfold p_src in Happ; simpl in Happ, Hne.
  pose proof (scan_one_len _ _ _ Hs) as Hlen. simpl in Hlen.
  assert (H' : literal_start lx = None \/ lit_run (c :: s) = ([], c :: s)).
  { right. apply lit_run_stop. unfold stops_literal. rewrite Hp. reflexivity. }
  destruct (emit_literal_cont o (c :: s) lx I H') as (I1 & L1 & P1 & T1 & C1).
  exists (o + byte_len t), r.
  set (lz := emit_literal_if_started o (set_iter it p lx)).
  assert (Z : literal_start lz = None /\ len lz = len lx /\ l_escaped lz = l_escaped (emit_literal_if_started o lx)
              /\ queue lz = queue (emit_literal_if_started o lx)
              /\ l_token lz = l_token (emit_literal_if_started o lx)
              /\ l_position lz = p /\ iter lz = it).
  { unfold lz, emit_literal_if_started. cbn [literal_start set_iter].
    destruct (literal_start lx) eqn:L; simpl; repeat split; auto. }
  destruct Z as (Z1 & Z2 & Z3 & Z4 & Z5 & Z6 & Z7).
  assert (X : exists q tk, eol (position_at o lx) (byte_len t) (set_iter it p lx)
     = {| literal_start := literal_start lz; len := len lz; l_escaped := l_escaped lz;
          l_position := mk_pos (byte_index (l_position lz)) 0 (row (l_position lz) + 1);
          iter := iter lz; queue := q; l_token := Some tk |}
     /\ forall l, q ++ tmerge (Some tk) l
        = queue (emit_literal_if_started o lx)
          ++ tmerge (l_token (emit_literal_if_started o lx))
               (to_token Eol (position_at o lx) (byte_len t) :: l)).
  { unfold eol. cbn [byte_index position_at]. fold lz. rewrite <- Z4, <- Z5.
    destruct (l_token lz) as [u|].
    - destruct (kind_eqb (kind u) Eol) eqn:EK; eexists; eexists; (split; [reflexivity|]); intros l; simpl.
      + rewrite EK. simpl. unfold to_token at 3. unfold token_new, tlen at 3. simpl.
        replace (o + byte_len t - o) with (byte_len t) by lia. reflexivity.
      + rewrite EK. simpl. rewrite <- app_assoc. reflexivity.
    - eexists; eexists; split; [reflexivity|]. intros l; reflexivity. }
  destruct X as (q & tk & X1 & X2). rewrite X1.
  split; [|split].
  - constructor; simpl.
    + rewrite Z7; exact Hit.
    + rewrite Z2. destruct I as [_ I2 _]. rewrite I2, Happ, byte_len_app. lia.
    + intros _. rewrite Z3. destruct I1 as [_ _ I3]. auto.
  - lia.
  - rewrite <- C1. unfold cont. cbn [queue l_token]. rewrite X2. f_equal. f_equal.
    unfold tail. cbn [literal_start l_position column row]. rewrite L1, Z1, P1, Z6, Hrow.
    rewrite (raw_unfold (c :: s)), Hs. cbn [annotate p_kind p_esc p_text kind_rows Nat.eqb].
    rewrite !Nat.add_0_r. reflexivity.
Qed.

(** A character that continues or starts a literal. *)
Lemma literal_ok : forall o c s lx,
  inv o (c :: s) lx ->
  stops_literal c s = false ->
  (literal_start lx = None -> char_eqb c c_space = false) ->
  turn_ok o c s lx
    (get_or_insert_literal (position_at o lx)
       (set_iter (char_indices_from (o + utf8_len c) s) (bump false o c (l_position lx)) lx)).
Proof.
  intros o c s lx I Hst Hsp.
  exists (o + utf8_len c), s.
  assert (Hst' := Hst). unfold stops_literal in Hst'.
  apply orb_false_iff in Hst'. destruct Hst' as [Hst1 Hsg].
  apply orb_false_iff in Hst1. destruct Hst1 as [Hst1 Hrun].
  apply orb_false_iff in Hst1. destruct Hst1 as [Hpair Hnb].
  destruct I as [I1 I2 I3].
  split; [|split].
  - constructor; simpl; [reflexivity| |].
    + rewrite I2. simpl. lia.
    + destruct (literal_start lx); discriminate.
  - lia.
  - unfold cont. cbn [queue l_token get_or_insert_literal set_iter]. f_equal. f_equal.
    unfold tail. cbn [literal_start get_or_insert_literal set_iter l_position l_escaped].
    unfold bump. rewrite Hnb. cbn [negb orb].
    destruct (literal_start lx) as [sp|] eqn:L.
    + simpl. rewrite Hst. destruct (lit_run s) as [a b] eqn:R. simpl.
      rewrite <- !Nat.add_assoc. simpl. reflexivity.
    + rewrite (raw_unfold (c :: s)). unfold scan_one.
      destruct (pair_kind c s) as [[k t]|]; [discriminate|]. rewrite Hnb.
      rewrite (Hsp eq_refl), andb_true_r in Hrun.
      destruct (run_kind c); [discriminate|]. destruct (single_kind c); [discriminate|].
      destruct (lit_run s) as [a b] eqn:R. rewrite (I3 eq_refl). unfold position_at. simpl.
      rewrite <- !Nat.add_assoc. simpl. rewrite ?Nat.add_0_r. reflexivity.
Qed.

(** The backslash. *)
Lemma escape_ok : forall o s lx,
  inv o (c_bslash :: s) lx ->
  turn_ok o c_bslash s lx
    (parse_escape (position_at o lx)
       (set_iter (char_indices_from (o + utf8_len c_bslash) s)
          (bump false o c_bslash (l_position lx)) lx)).
Proof.
  intros o s lx I.
  assert (H' : literal_start lx = None \/ lit_run (c_bslash :: s) = ([], c_bslash :: s)).
  { right. apply lit_run_stop. unfold stops_literal. rewrite char_eqb_refl.
    rewrite orb_true_r; reflexivity. }
  destruct (emit_literal_cont o _ lx I H') as (I1 & L1 & P1 & T1 & C1).
  unfold parse_escape. cbn [byte_index position_at].
  set (sx := set_iter (char_indices_from (o + utf8_len c_bslash) s)
               (bump false o c_bslash (l_position lx)) lx).
  set (lz := emit_literal_if_started o sx).
  assert (Z : literal_start lz = None /\ len lz = len lx /\ l_escaped lz = l_escaped (emit_literal_if_started o lx)
              /\ queue lz = queue (emit_literal_if_started o lx)
              /\ l_token lz = l_token (emit_literal_if_started o lx)
              /\ l_position lz = bump false o c_bslash (l_position lx)
              /\ iter lz = char_indices_from (o + 1) s).
  { unfold lz, sx, emit_literal_if_started. cbn [literal_start set_iter].
    destruct (literal_start lx) eqn:L; simpl; repeat split; auto. }
  destruct Z as (Z1 & Z2 & Z3 & Z4 & Z5 & Z6 & Z7).
  unfold next_char. rewrite Z7.
  destruct I as [I1' I2' I3']. destruct I1 as [J1 J2 J3].
  destruct s as [|d s].
  - exists (o + 1), []. simpl. split; [|split].
    + constructor; [exact Z7| |].
      * rewrite Z2, I2'. simpl. lia.
      * intros _. rewrite Z3. auto.
    + lia.
    + transitivity (cont o [c_bslash] (emit_literal_if_started o lx)); [|exact C1].
      unfold cont. rewrite Z4, Z5. f_equal. f_equal. unfold tail. rewrite Z1, L1. reflexivity.
  - cbn [char_indices_from].
    exists (o + 1 + utf8_len d), s. split; [|split].
    + constructor; simpl; [reflexivity| |].
      * rewrite Z2, I2'. simpl. lia.
      * rewrite Z1. discriminate.
    + simpl; lia.
    + transitivity (cont o (c_bslash :: d :: s) (emit_literal_if_started o lx)); [|exact C1].
      unfold cont. cbn [queue l_token get_or_insert_literal set_iter set_escaped]. rewrite Z4, Z5.
      f_equal. f_equal. unfold tail. cbn [literal_start get_or_insert_literal set_iter set_escaped l_position l_escaped].
      rewrite Z1, L1, Z6, P1.
      rewrite (raw_unfold (c_bslash :: d :: s)). unfold scan_one.
      replace (pair_kind c_bslash (d :: s)) with (@None (token_kind * str)).
      2:{ unfold pair_kind. simpl. reflexivity. }
      rewrite char_eqb_refl.
      destruct (lit_run s) as [a b]. simpl. unfold bump. simpl. rewrite orb_true_r. simpl.
      rewrite <- !Nat.add_assoc. simpl. rewrite ?Nat.add_0_r. reflexivity.
Qed.

Lemma next_is_miss : forall c o s p lx,
  (match s with d :: _ => char_eqb d c | [] => false end) = false ->
  next_is c (set_iter (char_indices_from o s) p lx)
  = (false, set_iter (char_indices_from o s) p lx).
Proof.
  intros c o s p lx H. unfold next_is. simpl. destruct s as [|d s]; simpl; [reflexivity|].
  rewrite H; reflexivity.
Qed.

Lemma next_is_hit : forall c o s p lx,
  next_is c (set_iter (char_indices_from o (c :: s)) p lx)
  = (true, set_iter (char_indices_from (o + utf8_len c) s) (bump false o c p) lx).
Proof. intros. unfold next_is. simpl. rewrite char_eqb_refl. reflexivity. Qed.

(** The unguarded arms. *)
Lemma parse_rest_ok : forall o c s lx,
  inv o (c :: s) lx -> pair_kind c s = None ->
  turn_ok o c s lx
    (parse_rest (position_at o lx) c
       (set_iter (char_indices_from (o + utf8_len c) s) (bump false o c (l_position lx)) lx)).
Proof.
  intros o c s lx I Hp. unfold parse_rest. cbn [literal_start set_iter].
  destruct (char_eqb c c_bslash) eqn:E0; [char_cases; apply escape_ok; exact I|].
  assert (SL : stops_literal c s = (is_some (run_kind c) && negb (char_eqb c c_space)) || is_some (single_kind c)).
  { unfold stops_literal. rewrite Hp, E0. reflexivity. }
  destruct (char_eqb c c_tilde) eqn:E1; [char_cases; apply take_while_ok; auto; right; discriminate|].
  destruct (char_eqb c c_star) eqn:E2; [char_cases; apply take_while_ok; auto; right; discriminate|].
  destruct (char_eqb c c_rcurly) eqn:E3; [char_cases; apply take_while_ok; auto; right; discriminate|].
  destruct (char_eqb c c_lcurly) eqn:E4; [char_cases; apply take_while_ok; auto; right; discriminate|].
  destruct (char_eqb c c_space) eqn:E5.
  { apply char_eqb_eq in E5; subst c. destruct (literal_start lx) eqn:L.
    - cbn [andb]. change (char_eqb c_space c_minus) with false. cbn iota.
      change (char_eqb c_space c_hash) with false. change (char_eqb c_space c_gt) with false.
      change (char_eqb c_space c_bang) with false. change (char_eqb c_space c_backtick) with false.
      change (char_eqb c_space c_plus) with false. change (char_eqb c_space c_lsquare) with false.
      change (char_eqb c_space c_rsquare) with false. change (char_eqb c_space c_lparen) with false.
      change (char_eqb c_space c_rparen) with false. change (char_eqb c_space c_underscore) with false.
      change (char_eqb c_space c_pipe) with false. cbn iota.
      apply literal_ok; auto. rewrite L; discriminate.
    - cbn [andb]. apply take_while_ok; auto. }
  cbn [andb].
  destruct (char_eqb c c_minus) eqn:E6; [char_cases; apply take_while_ok; auto; right; discriminate|].
  destruct (char_eqb c c_hash) eqn:E7; [char_cases; apply take_while_ok; auto; right; discriminate|].
  destruct (char_eqb c c_gt) eqn:E8; [char_cases; apply take_while_ok; auto; right; discriminate|].
  destruct (char_eqb c c_bang) eqn:E9; [char_cases; apply take_while_ok; auto; right; discriminate|].
  destruct (char_eqb c c_backtick) eqn:E10; [char_cases; apply take_while_ok; auto; right; discriminate|].
  destruct (char_eqb c c_plus) eqn:E11; [char_cases; apply take_while_ok; auto; right; discriminate|].
  destruct (char_eqb c c_lsquare) eqn:E12; [char_cases; apply single_ok; auto|].
  destruct (char_eqb c c_rsquare) eqn:E13; [char_cases; apply single_ok; auto|].
  destruct (char_eqb c c_lparen) eqn:E14; [char_cases; apply single_ok; auto|].
  destruct (char_eqb c c_rparen) eqn:E15; [char_cases; apply single_ok; auto|].
  destruct (char_eqb c c_underscore) eqn:E16; [char_cases; apply single_ok; auto|].
  destruct (char_eqb c c_pipe) eqn:E17; [char_cases; apply single_ok; auto|].
  apply literal_ok; auto. rewrite SL. unfold run_kind, single_kind.
  rewrite E1, E2, E3, E4, E5, E6, E7, E8, E9, E10, E11, E12, E13, E14, E15, E16, E17. reflexivity.
Qed.

Lemma turn_correct : forall o c s lx, inv o (c :: s) lx -> turn_ok o c s lx (turn o c s lx).
Proof.
  intros o c s lx I. unfold turn, parse_char.
  destruct (char_eqb c c_nl) eqn:E1.
  { apply char_eqb_eq in E1; subst c.
    change 1 with (byte_len [c_nl]) at 1.
    eapply (eol_ok o c_nl s lx [c_nl] s); auto. }
  destruct (char_eqb c c_cr) eqn:E2.
  { apply char_eqb_eq in E2; subst c.
    destruct s as [|d s]; [rewrite next_is_miss by reflexivity; apply parse_rest_ok; auto|].
    destruct (char_eqb d c_nl) eqn:E.
    - apply char_eqb_eq in E; subst d. rewrite next_is_hit.
      change 2 with (byte_len [c_cr; c_nl]) at 1.
      eapply (eol_ok o c_cr (c_nl :: s) lx [c_cr; c_nl] s); auto.
      rewrite <- Nat.add_assoc. reflexivity.
    - rewrite next_is_miss by exact E. apply parse_rest_ok; auto.
      unfold pair_kind. simpl (char_eqb c_cr c_nl). cbn iota. rewrite E. reflexivity. }
  destruct (char_eqb c c_lcurly) eqn:E3.
  { apply char_eqb_eq in E3; subst c.
    destruct s as [|d s]; [rewrite next_is_miss by reflexivity; apply parse_rest_ok; auto|].
    destruct (char_eqb d c_percent) eqn:E.
    - apply char_eqb_eq in E; subst d. rewrite next_is_hit.
      change (utf8_len c_lcurly) with 1. change (utf8_len c_percent) with 1.
      replace (o + 1 + 1) with (o + 2) by lia.
      apply double_ok; auto; discriminate.
    - rewrite next_is_miss by exact E. apply parse_rest_ok; auto.
      unfold pair_kind. simpl (char_eqb c_lcurly c_nl). cbn iota. rewrite E.
      rewrite andb_false_r. reflexivity. }
  destruct (char_eqb c c_percent) eqn:E4.
  { apply char_eqb_eq in E4; subst c.
    destruct s as [|d s]; [rewrite next_is_miss by reflexivity; apply parse_rest_ok; auto|].
    destruct (char_eqb d c_rcurly) eqn:E.
    - apply char_eqb_eq in E; subst d. rewrite next_is_hit.
      change (utf8_len c_rcurly) with 1. change (utf8_len c_percent) with 1.
      replace (o + 1 + 1) with (o + 2) by lia.
      apply double_ok; auto; discriminate.
    - rewrite next_is_miss by exact E. apply parse_rest_ok; auto.
      unfold pair_kind. simpl (char_eqb c_percent c_nl). cbn iota. rewrite E.
      rewrite andb_false_r. reflexivity. }
  apply parse_rest_ok; auto. unfold pair_kind. rewrite E1. destruct s; [reflexivity|].
  rewrite E2, E3, E4. reflexivity.
Qed.

(** ** advance, next, collect *)

Lemma finish_correct : forall o lx, inv o [] lx ->
  queue (finish lx) = cont o [] lx /\ inv o [] (finish lx) /\ l_token (finish lx) = None
  /\ literal_start (finish lx) = None.
Proof.
  intros o lx I. pose proof I as [I1 I2 I3]. simpl in I2. rewrite Nat.add_0_r in I2.
  unfold finish, emit_literal_if_started, cont, tail. cbn [literal_start set_iter byte_index l_position].
  destruct (literal_start lx) as [sp|] eqn:L; simpl; rewrite ?L.
  - rewrite I2, Nat.add_0_r. destruct (l_token lx) as [t|]; simpl; rewrite ?andb_false_r, <- ?app_assoc;
      (split; [reflexivity|split; [constructor; simpl; auto; lia|auto]]).
  - destruct (l_token lx) as [t|] eqn:T; simpl; rewrite ?app_nil_r, ?T, ?L;
      (split; [reflexivity|split; [constructor; simpl; auto; lia|auto]]).
Qed.

Lemma advance_loop_ok : forall n o s lx, inv o s lx -> length s < n ->
  exists lx1 o1 s1, advance_loop n lx = Ok lx1 /\ inv o1 s1 lx1 /\ cont o1 s1 lx1 = cont o s lx
   /\ (queue lx1 = [] -> s1 = [] /\ l_token lx1 = None /\ literal_start lx1 = None).
Proof.
  induction n; intros o s lx I Hl; [lia|].
  simpl. destruct (queue lx) as [|t q] eqn:Q.
  2:{ exists lx, o, s. rewrite Q. split; [reflexivity|split; [exact I|split; [reflexivity|discriminate]]]. }
  unfold next_char. rewrite (inv_iter _ _ _ I). destruct s as [|c s]; simpl.
  - destruct (finish_correct o lx I) as (F1 & F2 & F3 & F4).
    exists (finish lx), o, []. split; [reflexivity|]. split; [exact F2|].
    split; [|auto].
    rewrite <- F1 at 1. unfold cont, tail. rewrite F3, F4. cbn. rewrite app_nil_r. reflexivity.
  - destruct (turn_correct o c s lx I) as (o2 & s2 & J1 & J2 & J3).
    simpl in Hl. unfold turn, position_at in *.
    destruct (IHn o2 s2 _ J1) as (lx1 & o1 & s1 & K1 & K2 & K3 & K4); [lia|].
    exists lx1, o1, s1. rewrite K1, K3, J3. auto.
Qed.

Lemma inv_length : forall o s lx, inv o s lx -> length (iter lx) = length s.
Proof.
  intros o s lx [I _ _]. rewrite I. clear. revert o.
  induction s; simpl; intros; [reflexivity|rewrite IHs; reflexivity].
Qed.

(** [next] delivers the tokens one by one. *)
Lemma lexer_next_ok : forall o s lx, inv o s lx ->
  exists lx1 o1 s1, inv o1 s1 lx1 /\
   match cont o s lx with
   | [] => lexer_next lx = Ok (None, lx1) /\ cont o1 s1 lx1 = []
   | t :: l => lexer_next lx = Ok (Some t, lx1) /\ cont o1 s1 lx1 = l
   end.
Proof.
  intros o s lx I. unfold lexer_next, advance.
  destruct (advance_loop_ok (S (length (iter lx))) o s lx I) as (lx1 & o1 & s1 & H1 & H2 & H3 & H4).
  { rewrite (inv_length _ _ _ I). lia. }
  rewrite H1. simpl. rewrite <- H3. unfold cont at 1. destruct (queue lx1) as [|t q] eqn:Q.
  - destruct (H4 eq_refl) as (Hs & Ht & Hl). exists lx1, o1, s1. split; [exact H2|].
    rewrite Ht. unfold tail. rewrite Hl, Hs. cbn. split; [reflexivity|].
    unfold cont, tail. rewrite Q, Ht, Hl. reflexivity.
  - simpl. eexists; exists o1, s1. split; [|split; [reflexivity|]].
    + destruct H2 as [A B C]. constructor; simpl; auto.
    + reflexivity.
Qed.

Lemma collect_ok : forall n o s lx, inv o s lx -> length (cont o s lx) < n ->
  collect_loop n lx = Ok (cont o s lx).
Proof.
  induction n; intros o s lx I Hl; [lia|]. simpl.
  destruct (lexer_next_ok o s lx I) as (lx1 & o1 & s1 & I1 & H).
  destruct (cont o s lx) as [|t l] eqn:E.
  - destruct H as [-> _]. reflexivity.
  - destruct H as [-> H]. simpl. rewrite (IHn o1 s1 lx1 I1); rewrite H; [reflexivity|].
    simpl in Hl; lia.
Qed.

(** ** Merging pieces and merging tokens agree *)

Lemma scan_kinds : forall s p r, scan_one s = Some (p, r) ->
  p_kind p <> Terminator /\ (p_esc p = true -> p_kind p = Literal).
Proof.
  unfold scan_one; intros s p r H.
  destruct s as [|c s]; [discriminate|].
  destruct (pair_kind c s) as [[k t]|] eqn:E.
  - injection H as <- <-. simpl. split; [|discriminate].
    unfold pair_kind in E. destruct (char_eqb c c_nl); [injection E as <- <-; discriminate|].
    destruct s as [|d s]; [discriminate|].
    destruct (char_eqb c c_cr && char_eqb d c_nl);
      [|destruct (char_eqb c c_lcurly && char_eqb d c_percent);
        [|destruct (char_eqb c c_percent && char_eqb d c_rcurly); [|discriminate]]];
      injection E as <- <-; discriminate.
  - destruct (char_eqb c c_bslash) eqn:E1.
    + destruct s as [|d s]; [discriminate|]. destruct (lit_run s) as [a b].
      injection H as <- <-. simpl. split; [discriminate|reflexivity].
    + destruct (run_kind c) as [k|] eqn:K.
      * destruct (char_run c s) as [a b]. injection H as <- <-. simpl.
        split; [|discriminate]. apply run_kind_facts in K. intro; subst k. destruct K as (_&_&_&K&_); discriminate.
      * destruct (single_kind c) as [k|] eqn:K2.
        -- injection H as <- <-. simpl. split; [|discriminate]. apply single_kind_facts in K2.
           intro; subst k. destruct K2 as (_&K2&_); discriminate.
        -- destruct (lit_run s) as [a b]. injection H as <- <-. simpl. split; discriminate.
Qed.

Definition raw_ok (p : piece) : Prop :=
  p_kind p <> Terminator /\ (p_esc p = true -> p_kind p = Literal) /\ p_text p <> [].

Lemma raw_pieces_ok : forall s, Forall raw_ok (raw_pieces s).
Proof.
  apply raw_ind.
  - intros s H. rewrite raw_unfold, H. constructor.
  - intros s p r H IH. rewrite raw_unfold, H. constructor; [|exact IH].
    destruct (scan_kinds _ _ _ H) as [A B]. destruct (scan_one_app _ _ _ H) as [_ C].
    split; [exact A|split; [exact B|exact C]].
Qed.

Lemma kind_rows_eol : forall k, k <> Terminator -> k <> Eol -> kind_rows k = 0.
Proof. destruct k; try reflexivity; congruence. Qed.

Lemma tmerge_annotate : forall l o col r, Forall raw_ok l ->
  tmerge None (annotate o col r l) = annotate o col r (merge l).
Proof.
  (* strong induction on the length, because [merge] skips two *)
  intros l. remember (length l) as n eqn:Hn. assert (Hle : length l <= n) by lia. clear Hn.
  revert l Hle. induction n; intros l Hle o col r F.
  { destruct l; [reflexivity|simpl in Hle; lia]. }
  destruct l as [|p l1]; [reflexivity|].
  destruct l1 as [|q l2]; [reflexivity|].
  inversion F as [|? ? (P1 & P2 & P3) F1]; subst. inversion F1 as [|? ? (Q1 & Q2 & Q3) F2]; subst.
  cbn [merge].
  destruct (kind_eqb (p_kind p) Eol && kind_eqb (p_kind q) Eol) eqn:E.
  - apply andb_true_iff in E. destruct E as [E1 E2].
    assert (K1 := E1). assert (K2 := E2). apply kind_eqb_eq in K1, K2.
    assert (X1 : p_esc p = false). { destruct (p_esc p); [rewrite K1 in P2; discriminate (P2 eq_refl)|reflexivity]. }
    assert (X2 : p_esc q = false). { destruct (p_esc q); [rewrite K2 in Q2; discriminate (Q2 eq_refl)|reflexivity]. }
    cbn [annotate]. cbn [tmerge kind]. rewrite E1, E2. cbn [andb].
    cbn [p_kind p_esc p_text kind_rows Nat.eqb]. rewrite K1, K2, X1, X2. cbn [kind_rows Nat.eqb].
    rewrite byte_len_app.
    unfold to_token, token_new, tlen. cbn [t_start t_end t_pos byte_index].
    rewrite !Nat.add_0_r.
    replace (o + byte_len (p_text p) - o + (o + byte_len (p_text p) + byte_len (p_text q) - (o + byte_len (p_text p))))
      with (byte_len (p_text p) + byte_len (p_text q)) by lia.
    replace (o + byte_len (p_text p) + byte_len (p_text q)) with (o + (byte_len (p_text p) + byte_len (p_text q))) by lia.
    replace (r + 1 + 1) with (r + 2) by lia.
    rewrite <- (IHn l2) by (simpl in Hle; (lia || assumption)).
    destruct l2 as [|p3 l3]; [reflexivity|].
    cbn [annotate tmerge kind kind_eqb]. 
    replace (kind_eqb Terminator Eol) with false by reflexivity. reflexivity.
  - cbn [annotate tmerge kind]. rewrite E. f_equal.
    specialize (IHn (q :: l2)). cbn [annotate tmerge] in IHn. rewrite <- IHn; [reflexivity|simpl in *; lia|assumption].
Qed.

(** The token list of the grammar is what the lexer yields from its initial state. *)
Lemma cont_new : forall s, cont 0 s (lexer_new s) = spec_tokens s.
Proof.
  intros s. unfold cont, tail, lexer_new, spec_tokens, pieces. simpl.
  apply tmerge_annotate. apply raw_pieces_ok.
Qed.

Lemma inv_new : forall s, inv 0 s (lexer_new s).
Proof. intros; constructor; reflexivity. Qed.

Lemma annotate_length : forall l o col r, length (annotate o col r l) = length l.
Proof. induction l; simpl; intros; [reflexivity|rewrite IHl; reflexivity]. Qed.

Lemma merge_length : forall l, length (merge l) <= length l.
Proof.
  intros l. remember (length l) as n eqn:Hn. assert (Hle : length l <= n) by lia. clear Hn.
  revert l Hle. induction n; intros l Hle; (destruct l as [|p [|q l2]]; [simpl; lia|simpl in *; lia|]);
    [simpl in Hle; lia|].
  cbn [merge]. destruct (kind_eqb (p_kind p) Eol && kind_eqb (p_kind q) Eol).
  - simpl. assert (length (merge l2) <= n) by (apply IHn; simpl in Hle; lia). lia.
  - assert (length (merge (q :: l2)) <= n) by (apply IHn; simpl in *; lia). simpl in *. lia.
Qed.

Lemma merge_length_le : forall l, length (merge l) <= length l.
Proof. exact merge_length. Qed.

Lemma raw_length : forall s, length (raw_pieces s) <= length s.
Proof.
  apply raw_ind; intros.
  - rewrite raw_unfold, H. simpl; lia.
  - rewrite raw_unfold, H. apply scan_one_len in H. simpl. lia.
Qed.

Lemma spec_tokens_length : forall s, length (spec_tokens s) <= length s.
Proof.
  intros; unfold spec_tokens, pieces. rewrite annotate_length.
  eapply Nat.le_trans; [apply merge_length_le|apply raw_length].
Qed.

Theorem lex_correct : forall s, lex s = Ok (spec_tokens s).
Proof.
  intros s. unfold lex. rewrite (collect_ok _ 0 s _ (inv_new s)).
  - rewrite cont_new; reflexivity.
  - rewrite cont_new. pose proof (spec_tokens_length s). lia.
Qed.
