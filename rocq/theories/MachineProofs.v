(** No integer of the lexer or of a link destination leaves the range of its machine type. *)
From Coq Require Import Lia ZArith.
From Verif Require Import Base Lexer LexProofs Ops Parser Machine.

Lemma uadd_ok : forall m a b, a + b <= m -> uadd m a b = Ok (a + b).
Proof. intros m a b H. unfold uadd. rewrite (proj2 (Nat.leb_le _ _) H). reflexivity. Qed.

Lemma length_byte_len : forall s, length s <= byte_len s.
Proof. induction s as [|c s IH]; [cbn; lia|]. change (byte_len (c :: s)) with (utf8_len c + byte_len s).
  cbn [length]. pose proof (utf8_len_pos c). lia. Qed.

(** The state before the character at byte offset [o], with [r] to come. *)
Record inb (m o : nat) (r : str) (lx : lexer) : Prop := {
  inb_iter : iter lx = char_indices_from o r;
  inb_bytes : o + byte_len r <= m;
  inb_column : column (l_position lx) + length r <= m;
  inb_row : row (l_position lx) + length r <= m;
  inb_token : forall t, l_token lx = Some t -> kind t = Eol ->
    byte_index (t_pos t) = t_start t /\ t_start t <= t_end t <= o }.
Definition good (m : nat) (lx : lexer) : Prop := exists o r, inb m o r lx.
Definition fits (m : nat) (x : outcome lexer) (y : lexer) : Prop := x = Ok y /\ good m y.

Lemma inb_emit_lit : forall m o r e lx, inb m o r lx -> inb m o r (emit_literal_if_started e lx).
Proof.
  intros m o r e lx [A B C D E]. unfold emit_literal_if_started. destruct (literal_start lx) as [sp|].
  - constructor; cbn; auto. intros t H. injection H as <-. cbn. discriminate.
  - constructor; auto.
Qed.

Lemma inb_emit : forall m o r t lx, inb m o r lx -> kind t <> Eol -> inb m o r (emit t lx).
Proof.
  intros m o r t lx H K. unfold emit. apply (inb_emit_lit m o r (byte_index (t_pos t))) in H.
  destruct H as [A B C D E]. constructor; cbn; auto. intros u H. injection H as <-. contradiction.
Qed.

Lemma inb_get : forall m o r p lx, inb m o r lx -> inb m o r (get_or_insert_literal p lx).
Proof. intros m o r p lx [A B C D E]. constructor; cbn; auto. Qed.

Lemma emit_m_ok : forall m o r k p n lx, inb m o r lx -> k <> Eol -> byte_index p + n <= o ->
  fits m (emit_m m k p n lx) (emit (to_token k p n) lx).
Proof.
  intros m o r k p n lx H K L. pose proof (inb_bytes _ _ _ _ H).
  unfold emit_m, to_token_m. rewrite uadd_ok by lia. cbn [bind]. split; [reflexivity|].
  exists o, r. apply inb_emit; [exact H|exact K].
Qed.

Lemma bump_m_ok : forall m esc o c p, column p + 1 <= m -> bump_m m esc o c p = Ok (bump esc o c p).
Proof. intros m esc o c p H. unfold bump_m, bump. rewrite uadd_ok by exact H. destruct (_ || _); reflexivity. Qed.
Lemma bump_fields : forall esc o c p,
  byte_index (bump esc o c p) = o /\ column (bump esc o c p) <= column p + 1 /\ row (bump esc o c p) = row p.
Proof. intros esc o c p. unfold bump. destruct (_ || _); cbn; repeat split; lia. Qed.

Lemma next_char_m_ok : forall m esc o r lx, inb m o r lx ->
  next_char_m m esc lx = Ok (next_char esc lx) /\
  match r with
  | [] => next_char esc lx = (None, lx)
  | c :: r' => exists lx', next_char esc lx = (Some (mk_pos o (column (l_position lx)) (row (l_position lx)), c), lx')
      /\ inb m (o + utf8_len c) r' lx' /\ byte_index (l_position lx') = o
  end.
Proof.
  intros m esc o r lx [A B C D E]. unfold next_char_m, next_char. rewrite A.
  destruct r as [|c r']; cbn [char_indices_from]; [split; reflexivity|].
  change (byte_len (c :: r')) with (utf8_len c + byte_len r') in B. cbn [length] in C, D.
  rewrite bump_m_ok by lia. cbn [bind]. split; [reflexivity|].
  destruct (bump_fields esc o c (l_position lx)) as (F1 & F2 & F3).
  eexists. split; [reflexivity|]. split; [|exact F1].
  constructor; cbn [set_iter iter l_position l_token]; [reflexivity|lia|lia|lia|].
  intros t Ht Hk. destruct (E t Ht Hk). split; [assumption|]. lia.
Qed.

Lemma next_is_m_ok : forall m c o r lx, inb m o r lx ->
  next_is_m m c lx = Ok (next_is c lx) /\
  ((next_is c lx = (false, lx)) \/
   (exists lx' o' r', next_is c lx = (true, lx') /\ inb m o' r' lx' /\ o + 1 <= o')).
Proof.
  intros m c o r lx H. destruct (next_char_m_ok m false o r lx H) as [X Y]. pose proof (inb_iter _ _ _ _ H) as I.
  unfold next_is_m, next_is. rewrite I. destruct r as [|d r]; cbn [char_indices_from]; [split; [reflexivity|left; reflexivity]|].
  destruct Y as (lx' & Y & Z & W). rewrite X, Y. cbn [bind snd].
  destruct (char_eqb d c); [|split; [reflexivity|left; reflexivity]].
  split; [reflexivity|]. right. exists lx', (o + utf8_len d), r. split; [reflexivity|]. split; [exact Z|]. pose proof (utf8_len_pos d). lia.
Qed.

Lemma take_loop_m_ok : forall m c r o p,
  byte_index p + 1 <= o -> o + byte_len r <= m -> column p + length r <= m -> row p + length r <= m ->
  exists o' r' q, take_loop c (char_indices_from o r) p = (char_indices_from o' r', q)
    /\ take_loop_m m c (char_indices_from o r) p = Ok (char_indices_from o' r', q)
    /\ byte_index q + 1 <= o' /\ o <= o' /\ o' + byte_len r' <= m
    /\ column q + length r' <= m /\ row q + length r' <= m.
Proof.
  intros m c. induction r as [|d r IH]; intros o p H1 H2 H3 H4; cbn [char_indices_from take_loop take_loop_m].
  - exists o, [], p. repeat split; auto.
  - destruct (char_eqb d c) eqn:E.
    + change (byte_len (d :: r)) with (utf8_len d + byte_len r) in H2. cbn [length] in H3, H4.
      rewrite bump_m_ok by lia. cbn [bind]. destruct (bump_fields false o d p) as (F1 & F2 & F3).
      pose proof (utf8_len_pos d).
      destruct (IH (o + utf8_len d) (bump false o d p)) as (o' & r' & q & A & B & C & D & G); try lia.
      exists o', r', q. repeat split; auto; lia.
    + exists o, (d :: r), p. cbn [char_indices_from]. repeat split; auto.
Qed.

Lemma take_while_m_ok : forall m c k p o r lx, inb m o r lx -> k <> Eol -> byte_index (l_position lx) + 1 <= o ->
  fits m (take_while_m m c k p lx) (take_while c k p lx).
Proof.
  intros m c k p o r lx [A B C D E] K L. unfold take_while_m, take_while. rewrite A.
  destruct (take_loop_m_ok m c r o (l_position lx) L B C D) as (o' & r' & q & T1 & T2 & G1 & G2 & G3 & G4 & G5).
  rewrite T1, T2. cbn [bind]. rewrite uadd_ok by lia. cbn [bind]. split; [reflexivity|].
  exists o', r'. apply inb_emit; [|exact K]. constructor; cbn [set_iter iter l_position l_token]; auto.
  intros t Ht Hk. destruct (E t Ht Hk). split; [assumption|lia].
Qed.

Lemma eol_m_ok : forall m o r p n lx, inb m o r lx -> row (l_position lx) + 1 <= m -> row (l_position lx) + 1 + length r <= m ->
  byte_index p + n <= o ->
  (forall t, l_token lx = Some t -> kind t = Eol -> t_end t <= byte_index p) ->
  fits m (eol_m m p n lx) (eol p n lx).
Proof.
  intros m o r p n lx H R1 R2 L T. set (e := byte_index p) in *.
  assert (P : l_position (emit_literal_if_started e lx) = l_position lx)
    by (unfold emit_literal_if_started; destruct (literal_start lx); reflexivity).
  assert (T' : forall t, l_token (emit_literal_if_started e lx) = Some t -> kind t = Eol -> t_end t <= e).
  { unfold emit_literal_if_started. destruct (literal_start lx); [|exact T].
    cbn. intros t Q. injection Q as <-. cbn. discriminate. }
  apply (inb_emit_lit m o r e) in H. destruct H as [A B C D E].
  unfold eol_m, eol. fold e. set (lz := emit_literal_if_started e lx) in *. clearbody lz.
  rewrite P in *. rewrite uadd_ok by exact R1. cbn [bind].
  unfold to_token_m. fold e. rewrite uadd_ok by lia. cbn [bind].
  assert (Z : forall q, fits m (Ok {| literal_start := literal_start lz; len := len lz; l_escaped := l_escaped lz;
         l_position := mk_pos (byte_index (l_position lx)) 0 (row (l_position lx) + 1); iter := iter lz; queue := q;
         l_token := Some (token_new Eol e (e + n) p) |})
     {| literal_start := literal_start lz; len := len lz; l_escaped := l_escaped lz;
         l_position := mk_pos (byte_index (l_position lx)) 0 (row (l_position lx) + 1); iter := iter lz; queue := q;
         l_token := Some (to_token Eol p n) |}).
  { intro q. split; [reflexivity|]. exists o, r. constructor; cbn [iter l_position l_token column row]; auto; [lia|].
    intros t Q _. injection Q as <-. unfold to_token. cbn. fold e. lia. }
  destruct (l_token lz) as [t|] eqn:Q; [|apply Z].
  destruct (kind_eqb (kind t) Eol) eqn:K; [|apply Z].
  assert (K' : kind t = Eol) by (unfold kind_eqb in K; destruct (kind_eq_dec (kind t) Eol); congruence).
  destruct (E t eq_refl K') as [E1 E2]. pose proof (T' t eq_refl K').
  rewrite uadd_ok by (unfold tlen; lia). cbn [bind].
  rewrite uadd_ok by (unfold tlen; lia). cbn [bind].
  split; [reflexivity|]. exists o, r. constructor; cbn [iter l_position l_token column row]; auto; [lia|].
  intros u Q' Ku. injection Q' as <-. discriminate.
Qed.

Lemma parse_escape_m_ok : forall m o r p lx, inb m o r lx -> fits m (parse_escape_m m p lx) (parse_escape p lx).
Proof.
  intros m o r p lx H. unfold parse_escape_m, parse_escape.
  apply (inb_emit_lit m o r (byte_index p)) in H.
  destruct (next_char_m_ok m true o r _ H) as [X Y]. rewrite X. cbn [bind]. destruct r as [|c r].
  - rewrite Y. split; [reflexivity|]. exists o, []. exact H.
  - destruct Y as (lx' & Y & Z & _). rewrite Y. split; [reflexivity|].
    exists (o + utf8_len c), r. apply inb_get. destruct Z. constructor; auto.
Qed.

Lemma parse_rest_m_ok : forall m o r p c lx, inb m o r lx -> byte_index (l_position lx) + 1 <= o ->
  byte_index p + 1 <= o -> fits m (parse_rest_m m p c lx) (parse_rest p c lx).
Proof.
  intros m o r p c lx H L P. unfold parse_rest_m, parse_rest.
  repeat match goal with |- fits _ (if ?b then _ else _) _ => destruct b end;
    first [ eapply parse_escape_m_ok; eassumption
          | eapply take_while_m_ok; [eassumption|discriminate|assumption]
          | eapply emit_m_ok; [eassumption|discriminate|assumption]
          | split; [reflexivity|]; exists o, r; apply inb_get; assumption ].
Qed.

Lemma parse_char_m_ok : forall m o r p c lx, inb m o r lx -> byte_index (l_position lx) + 1 <= o ->
  byte_index p + 1 <= o -> row (l_position lx) + 1 + length r <= m ->
  (forall t, l_token lx = Some t -> kind t = Eol -> t_end t <= byte_index p) ->
  fits m (parse_char_m m p c lx) (parse_char p c lx).
Proof.
  intros m o r p c lx H L P R T. unfold parse_char_m, parse_char.
  destruct (char_eqb c c_nl); [eapply eol_m_ok; eauto; lia|].
  destruct (char_eqb c c_cr).
  { destruct (next_is_m_ok m c_nl o r lx H) as [X [Y|(lx' & o' & r' & Y & Z & W)]]; rewrite X, Y; cbn [bind];
      [eapply parse_rest_m_ok; eassumption|].
    assert (N : row (l_position lx') = row (l_position lx) /\ l_token lx' = l_token lx /\ length r' <= length r).
    { pose proof (inb_iter _ _ _ _ H) as I. pose proof (inb_iter _ _ _ _ Z) as I'.
      unfold next_is, next_char in Y. destruct r as [|d r]; rewrite I in Y; cbn [char_indices_from] in Y; [discriminate|].
      destruct (char_eqb d c_nl); [|discriminate]. injection Y as <-. cbn [snd set_iter l_position l_token iter] in *.
      repeat split; [apply bump_fields|].
      assert (G : forall a x y z, char_indices_from x a = char_indices_from y z -> length z = length a).
      { induction a as [|h a IH]; intros x y [|h' z]; cbn; try discriminate; auto. intro Q. injection Q as _ _ Q. f_equal. eauto. }
      apply G in I'. cbn [length]. lia. }
    destruct N as (N1 & N2 & N3).
    eapply eol_m_ok; [exact Z| | | |]; [lia..|]. rewrite N2. exact T. }
  destruct (char_eqb c c_lcurly).
  { destruct (next_is_m_ok m c_percent o r lx H) as [X [Y|(lx' & o' & r' & Y & Z & W)]]; rewrite X, Y; cbn [bind];
      [eapply parse_rest_m_ok; eassumption|]. eapply emit_m_ok; [exact Z|discriminate|lia]. }
  destruct (char_eqb c c_percent).
  { destruct (next_is_m_ok m c_rcurly o r lx H) as [X [Y|(lx' & o' & r' & Y & Z & W)]]; rewrite X, Y; cbn [bind];
      [eapply parse_rest_m_ok; eassumption|]. eapply emit_m_ok; [exact Z|discriminate|lia]. }
  eapply parse_rest_m_ok; eassumption.
Qed.

Lemma advance_loop_m_ok : forall m fuel lx, good m lx ->
  advance_loop_m m fuel lx = advance_loop fuel lx /\
  (forall lx', advance_loop fuel lx = Ok lx' -> good m lx').
Proof.
  intros m. induction fuel as [|f IH]; intros lx G; cbn [advance_loop advance_loop_m]; [split; [reflexivity|discriminate]|].
  destruct (queue lx); [|split; [reflexivity|]; intros lx' Q; injection Q as <-; exact G].
  destruct G as (o & r & H). destruct (next_char_m_ok m false o r lx H) as [X Y]. rewrite X. cbn [bind].
  destruct r as [|c r].
  - rewrite Y. split; [reflexivity|]. intros lx' Q. injection Q as <-. exists o, [].
    destruct H as [A B C D E]. unfold finish.
    set (lz := emit_literal_if_started _ _).
    assert (Z : inb m o [] lz) by (apply inb_emit_lit; constructor; cbn [set_iter iter l_position l_token column row]; auto).
    destruct (l_token lz); [|exact Z]. destruct Z. constructor; cbn [iter l_position l_token]; auto. discriminate.
  - destruct Y as (lx1 & Y & Z & W). rewrite Y.
    assert (F : fits m (parse_char_m m (mk_pos o (column (l_position lx)) (row (l_position lx))) c lx1)
                  (parse_char (mk_pos o (column (l_position lx)) (row (l_position lx))) c lx1)).
    { unfold next_char in Y. rewrite (inb_iter _ _ _ _ H) in Y. cbn [char_indices_from] in Y. injection Y as Y.
      pose proof (utf8_len_pos c). pose proof (inb_row _ _ _ _ H) as R. cbn [length] in R.
      eapply parse_char_m_ok; [exact Z|lia|cbn; lia| |].
      - rewrite <- Y. cbn [set_iter l_position]. destruct (bump_fields false o c (l_position lx)) as (_ & _ & F). lia.
      - rewrite <- Y. cbn [set_iter l_token byte_index]. intros t Ht Hk. apply (inb_token _ _ _ _ H t Ht Hk). }
    destruct F as [F1 F2]. rewrite F1. cbn [bind]. apply IH. exact F2.
Qed.

Lemma lexer_next_m_ok : forall m lx, good m lx ->
  lexer_next_m m lx = lexer_next lx /\ (forall o lx', lexer_next lx = Ok (o, lx') -> good m lx').
Proof.
  intros m lx G. unfold lexer_next_m, lexer_next, advance.
  destruct (advance_loop_m_ok m (S (length (iter lx))) lx G) as [A B]. rewrite A.
  destruct (advance_loop (S (length (iter lx))) lx) as [l| |]; cbn [bind]; try (split; [reflexivity|discriminate]).
  specialize (B l eq_refl). split; [reflexivity|]. intros o lx' Q.
  destruct (queue l); injection Q as <- <-; [exact B|].
  destruct B as (o' & r & []). exists o', r. constructor; auto.
Qed.

Lemma collect_loop_m_ok : forall m fuel lx, good m lx -> collect_loop_m m fuel lx = collect_loop fuel lx.
Proof.
  intros m. induction fuel as [|f IH]; intros lx G; cbn [collect_loop collect_loop_m]; [reflexivity|].
  destruct (lexer_next_m_ok m lx G) as [A B]. rewrite A.
  destruct (lexer_next lx) as [[[t|] l]| |]; cbn [bind]; try reflexivity.
  rewrite (IH l (B _ _ eq_refl)). reflexivity.
Qed.

Theorem lex_m_ok : forall m s, byte_len s <= m -> lex_m m s = lex s.
Proof.
  intros m s H. apply collect_loop_m_ok. exists 0, s. pose proof (length_byte_len s).
  constructor; cbn; try reflexivity; try lia. discriminate.
Qed.

(** ** Destinations *)

Lemma within_ok : forall lo hi z, (lo <= z <= hi)%Z -> within lo hi z = Ok z.
Proof. intros lo hi z H. unfold within. rewrite (proj2 (Z.leb_le _ _)), (proj2 (Z.leb_le _ _)) by lia. reflexivity. Qed.

Lemma destination_loop_m_ok : forall lo hi, (lo <= 0)%Z -> forall fuel n e p,
  1 <= n -> (Z.of_nat n + Z.of_nat (length (tokens p) - pos p) <= hi)%Z ->
  destination_loop_m lo hi fuel (Z.of_nat n) e p = destination_loop fuel n e p.
Proof.
  intros lo hi L. induction fuel as [|f IH]; intros n e p N H; cbn [destination_loop destination_loop_m]; [reflexivity|].
  destruct (peek p) as [t|] eqn:P; [|reflexivity]. destruct (at_eof p); [reflexivity|].
  assert (B : pos p < length (tokens p)) by (apply nth_error_Some; unfold peek in P; congruence).
  assert (D : forall k, 1 <= k -> (Z.of_nat k <= Z.of_nat n + 1)%Z ->
    (Z.of_nat k + Z.of_nat (length (tokens (set_pos (pos p + 1) p)) - pos (set_pos (pos p + 1) p)) <= hi)%Z)
    by (intros k _ Q; cbn [set_pos tokens pos]; lia).
  destruct (kind t); try (apply IH; [lia|apply D; lia]).
  - rewrite within_ok by lia. cbn [bind]. replace (Z.of_nat n + 1)%Z with (Z.of_nat (n + 1)) by lia.
    apply IH; [lia|apply D; lia].
  - rewrite within_ok by lia. cbn [bind]. replace (Z.of_nat n - 1)%Z with (Z.of_nat (n - 1)) by lia.
    destruct (n - 1 =? 0) eqn:E.
    + apply Nat.eqb_eq in E. rewrite E. reflexivity.
    + apply Nat.eqb_neq in E. rewrite (proj2 (Z.eqb_neq _ _)) by lia. apply IH; [lia|apply D; lia].
Qed.

Theorem destination_m_ok : forall lo hi p, (lo <= 0)%Z -> (Z.of_nat (length (tokens p)) <= hi)%Z ->
  destination_m lo hi p = destination p.
Proof.
  intros lo hi p L H. unfold destination_m, destination, eat.
  destruct (nth_error (tokens p) (pos p)) as [t|] eqn:P; [|reflexivity].
  assert (B : pos p < length (tokens p)) by (apply nth_error_Some; congruence).
  destruct (is_left_paren t); [|reflexivity].
  change 1%Z with (Z.of_nat 1). rewrite destination_loop_m_ok; [reflexivity|exact L|lia|].
  cbn [set_pos tokens pos]. lia.
Qed.

(** One more token than the greatest value of the counter overflows it. *)
Definition parens (n : nat) : parser := mk_parser [] (repeat (mk_token LeftParenthesis 0 1 (mk_pos 0 0 0) false) n) 0 [] [].

Lemma nth_repeat : forall A (x : A) n i, i < n -> nth_error (repeat x n) i = Some x.
Proof. intros A x. induction n as [|n IH]; intros i H; [lia|]. destruct i; [reflexivity|]. apply IH. lia. Qed.

Lemma parens_loop : forall lo hi n, (lo <= 0)%Z -> hi = Z.of_nat n -> forall f c i e, 1 <= c -> c = i -> n + 1 - i <= f ->
  i <= n ->
  destination_loop_m lo hi f (Z.of_nat c) e (set_pos i (parens (n + 1))) = Panic.
Proof.
  intros lo hi n L -> . induction f as [|f IH]; intros c i e C -> F I; [lia|]. cbn [destination_loop_m].
  unfold at_eof, peek. cbn [set_pos parens tokens pos eof_stack existsb].
  rewrite nth_repeat by lia. cbn [kind].
  destruct (Nat.eq_dec i n) as [->|D].
  - unfold within. rewrite (proj2 (Z.leb_gt (Z.of_nat n + 1) (Z.of_nat n))) by lia.
    rewrite Bool.andb_false_r. reflexivity.
  - rewrite within_ok by lia. cbn [bind]. replace (Z.of_nat i + 1)%Z with (Z.of_nat (i + 1)) by lia.
    apply (IH (i + 1) (i + 1) e); lia.
Qed.

Theorem destination_m_overflow : forall lo n, (lo <= 0)%Z -> 1 <= n ->
  destination_m lo (Z.of_nat n) (parens (n + 1)) = Panic.
Proof.
  intros lo n L N. unfold destination_m, eat. change (nth_error _ _) with (nth_error (repeat (mk_token LeftParenthesis 0 1 (mk_pos 0 0 0) false) (n + 1)) 0). rewrite nth_repeat by lia.
  replace (loop_fuel (parens (n + 1))) with (S (n + 1)) by (unfold loop_fuel; cbn [parens tokens]; rewrite repeat_length; reflexivity).
  change (is_left_paren _) with true. cbn iota.
  change 1%Z with (Z.of_nat 1).
  change (set_pos (0 + 1) _) with (set_pos 1 (parens (n + 1))).
  rewrite (parens_loop lo (Z.of_nat n) n); auto; lia.
Qed.
