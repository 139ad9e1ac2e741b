(** A link whose destination opens one parenthesis more than the counter can hold. *)
From Coq Require Import ZArith.
From Verif Require Import Base Lexer LexSpec LexProofs LexFacts Ops Parser StepsBound Machine MachineProofs ParserMachine ParserMachineProofs.

Definition opened (h : nat) : str := c_lsquare :: c_rsquare :: repeat c_lparen (S h).
Definition paren (t : token) : Prop := kind t = LeftParenthesis /\ tlen t = 1.

Lemma parens_scan n f : n <= f -> scan f (repeat c_lparen n) = repeat (mk_piece LeftParenthesis [c_lparen] false) n.
Proof.
  revert f. induction n as [|n IH]; intros [|f] L; try reflexivity; [lia|]. cbn [repeat scan].
  assert (H : scan_one (c_lparen :: repeat c_lparen n) = Some (mk_piece LeftParenthesis [c_lparen] false, repeat c_lparen n))
    by (destruct n; reflexivity).
  rewrite H, IH by lia. reflexivity.
Qed.
Lemma parens_merge n :
  merge (repeat (mk_piece LeftParenthesis [c_lparen] false) n) = repeat (mk_piece LeftParenthesis [c_lparen] false) n.
Proof.
  induction n as [|[|n] IH]; try reflexivity. set (x := mk_piece LeftParenthesis [c_lparen] false) in *.
  change (merge (repeat x (S (S n)))) with (x :: merge (repeat x (S n))). rewrite IH. reflexivity.
Qed.
Lemma parens_annotate n o c r : Forall paren (annotate o c r (repeat (mk_piece LeftParenthesis [c_lparen] false) n))
  /\ length (annotate o c r (repeat (mk_piece LeftParenthesis [c_lparen] false) n)) = n.
Proof.
  revert o c r. induction n as [|n IH]; intros o c r; cbn [repeat annotate length]; [auto|].
  destruct (IH (o + 0 + byte_len [c_lparen]) (c + 1) (r + 0)) as [F L].
  split; [constructor; [|exact F]|f_equal; exact L]. unfold paren, tlen. cbn. split; [reflexivity|lia].
Qed.
Lemma opened_pieces h : pieces (opened h) =
  mk_piece LeftSquareBracket [c_lsquare] false :: mk_piece RightSquareBracket [c_rsquare] false ::
  repeat (mk_piece LeftParenthesis [c_lparen] false) (S h).
Proof.
  unfold pieces, raw_pieces. set (x := mk_piece LeftParenthesis [c_lparen] false).
  change (scan (length (opened h)) (opened h)) with
    (mk_piece LeftSquareBracket [c_lsquare] false :: mk_piece RightSquareBracket [c_rsquare] false ::
     scan (length (repeat c_lparen (S h))) (repeat c_lparen (S h))).
  rewrite parens_scan by (rewrite repeat_length; lia). fold x.
  transitivity (mk_piece LeftSquareBracket [c_lsquare] false :: mk_piece RightSquareBracket [c_rsquare] false ::
    merge (repeat x (S h))); [reflexivity|]. unfold x. rewrite parens_merge. reflexivity.
Qed.
Definition lb := mk_token LeftSquareBracket 0 1 (mk_pos 0 0 0) false.
Definition rb := mk_token RightSquareBracket 1 2 (mk_pos 1 1 0) false.
Definition lp := mk_token LeftParenthesis 2 3 (mk_pos 2 2 0) false.
Lemma opened_lex h : exists ts, lex (opened h) = Ok (lb :: rb :: lp :: ts) /\ Forall paren ts /\ length ts = h.
Proof.
  rewrite lex_correct. unfold spec_tokens. rewrite opened_pieces. cbn [repeat annotate].
  eexists. split; [reflexivity|]. apply parens_annotate.
Qed.

Section Overflow.
  Variables m h : nat.
  Variable lo : Z.
  Hypothesis LO : (lo <= 0)%Z.
  Variable ts : list token.
  Hypothesis PS : Forall paren ts.
  Hypothesis LEN : length ts = h.
  Hypothesis FIT : h + 3 <= m.

  Lemma loop_overflows f c i e s st o : h + 1 <= f + (c - 1) -> 1 <= c -> i = c + 2 ->
    (st = [] \/ st = [StopTerminator]) ->
    c <= h -> destination_loop_u m lo (Z.of_nat h) f (Z.of_nat c) e (mk_parser s (lb :: rb :: lp :: ts) i st o) = Panic.
  Proof.
    intros F C -> ST. revert c e F C. induction f as [|f IH]; intros c e F C H; [lia|]. cbn [destination_loop_u].
    unfold peek. cbn [tokens pos]. replace (c + 2) with (3 + (c - 1)) by lia. cbn [nth_error Nat.add].
    destruct (nth_error ts (c - 1)) as [t|] eqn:T; [|apply nth_error_None in T; lia].
    assert (K : kind t = LeftParenthesis) by (rewrite Forall_forall in PS; apply nth_error_In, PS in T; apply T).
    assert (AE : at_eof_u m (mk_parser s (lb :: rb :: lp :: ts) (S (S (S (c - 1)))) st o) = Ok false).
    { unfold at_eof_u, peek. cbn [tokens pos nth_error]. rewrite T. destruct ST as [-> | ->]; cbn; [reflexivity|].
      rewrite K. reflexivity. }
    rewrite AE. cbn [bind]. rewrite K.
    destruct (Nat.eq_dec c h) as [E|N].
    - subst c. unfold within. rewrite (proj2 (Z.leb_gt (Z.of_nat h + 1) (Z.of_nat h))) by lia.
      rewrite Bool.andb_false_r. reflexivity.
    - rewrite within_ok by lia. cbn [bind]. rewrite uadd_ok by (cbn [pos]; lia). cbn [bind].
      replace (Z.of_nat c + 1)%Z with (Z.of_nat (c + 1)) by lia. unfold set_pos. cbn [pos tokens source eof_stack ops].
      replace (S (S (S (c - 1))) + 1) with (c + 1 + 2) by lia. apply IH; lia.
  Qed.
  Hypothesis POS : 1 <= h.
  Lemma anchor_overflows s o st : st = [] \/ st = [StopTerminator] ->
    anchor_u m lo (Z.of_nat h) (mk_parser s (lb :: rb :: lp :: ts) 0 st o) = Panic.
  Proof.
    intros ST. assert (E : exists k, m = S (S (S k))) by (exists (m - 3); lia). destruct E as (k & E). unfold anchor_u.
    assert (T : exists o', title_u m (push_op (new_start NAnchor no_content) (mk_parser s (lb :: rb :: lp :: ts) 0 st o))
      = Ok (true, mk_parser s (lb :: rb :: lp :: ts) 2 st o')).
    { rewrite E. destruct ST as [-> | ->]; eexists; cbn; reflexivity. }
    destruct T as (o' & ->). cbn [bind negb]. unfold destination_u.
    assert (A : eat_u m is_left_paren (mk_parser s (lb :: rb :: lp :: ts) 2 st o')
      = Ok (Some (2, 3), mk_parser s (lb :: rb :: lp :: ts) 3 st o')) by (rewrite E; reflexivity).
    rewrite A. cbn [bind].
    change 1%Z with (Z.of_nat 1). rewrite loop_overflows; auto; unfold loop_fuel; cbn [tokens length]; lia.
  Qed.
End Overflow.
Lemma document_eq m lo hi f p : document_u m lo hi (S f) p =
  let! p1 := document_loop_u m lo hi f (push_op (new_start NDocument no_content) p) in
  Ok (push_op (new_end NDocument no_content) p1).
Proof. reflexivity. Qed.
Lemma document_loop_eq m lo hi f p : document_loop_u m lo hi (S f) p =
  let! e := at_eof_u m p in
  if e then Ok p
  else
    let! (o, p1) := eat_u m is_terminator p in
    let! p2 :=
      match o with
      | Some range => let! c := span range p1 in Ok (push_op (new_value c) p1)
      | None =>
          let! (b, q) := orelse (code_u m) (orelse (collapsible_u m lo hi f) (orelse (embed_u m) (highlight_u m lo hi))) p1 in
          if b then Ok q else let! (_, q1) := simple_block_u m lo hi q in Ok q1
      end in
    if pos p <? pos p2 then document_loop_u m lo hi f p2 else Panic.
Proof. reflexivity. Qed.
Lemma document_loop_overflows k lo h ts s o f : (lo <= 0)%Z -> 1 <= h -> h <= k -> Forall paren ts -> length ts = h ->
  document_loop_u (S (S (S k))) lo (Z.of_nat h) (S (S f)) (mk_parser s (lb :: rb :: lp :: ts) 0 [] o) = Panic.
Proof.
  intros LO H FIT PS LEN. rewrite document_loop_eq. set (p0 := mk_parser _ _ _ _ _). set (m := S (S (S k))).
  change (at_eof_u m p0) with (Ok false). cbn [bind].
  change (eat_u m is_terminator p0) with (Ok (@None (nat * nat), p0)). cbn [bind]. unfold orelse.
  change (code_u m p0) with (Ok (false, p0)). cbn [bind].
  change (collapsible_u m lo (Z.of_nat h) (S f) p0) with (Ok (false, p0)). cbn [bind].
  change (embed_u m p0) with (Ok (false, p0)). cbn [bind].
  change (highlight_u m lo (Z.of_nat h) p0) with (Ok (false, p0)). cbn [bind].
  unfold simple_block_u, with_eof. change (eof_stack p0) with (@nil stop_condition). set (p1 := set_stack _ p0). unfold orelse.
  assert (L : list_u m lo (Z.of_nat h) 0 p1 = Ok (false, p1)) by reflexivity. rewrite L. cbn [bind].
  assert (IM : images_u m lo (Z.of_nat h) p1 = Ok (false, mk_parser s (lb :: rb :: lp :: ts) 0 [StopTerminator] (firstn (length o) o)))
    by reflexivity.
  rewrite IM, firstn_all. cbn [bind]. change (mk_parser s (lb :: rb :: lp :: ts) 0 [StopTerminator] o) with p1.
  change (thematic_break_u m p1) with (Ok (false, p1)). cbn [bind].
  change (heading_u m lo (Z.of_nat h) p1) with (Ok (false, p1)). cbn [bind].
  unfold paragraph_u. change (loop_fuel p1) with (S (S (S (S (length ts))))). cbn [paragraph_loop_u].
  set (p2 := push_op _ p1).
  change (at_eof_u m p2) with (Ok false). cbn [bind]. unfold inline_node_u, orelse.
  change (strikethrough_u m p2) with (Ok (false, p2)). cbn [bind].
  change (italic_u m p2) with (Ok (false, p2)). cbn [bind].
  change (bold_u m p2) with (Ok (false, p2)). cbn [bind].
  unfold p2, p1, p0, push_op, set_ops, set_stack. cbn [source tokens pos eof_stack ops].
  rewrite (anchor_overflows m h lo LO ts PS LEN ltac:(unfold m; lia) H) by auto. reflexivity.
Qed.
Lemma opened_bytes h : byte_len (opened h) = h + 3.
Proof.
  assert (R : forall n, byte_len (repeat c_lparen n) = n)
    by (induction n as [|n IH]; [reflexivity|change (S (byte_len (repeat c_lparen n)) = S n); rewrite IH; reflexivity]).
  change (S (S (byte_len (repeat c_lparen (S h)))) = h + 3). rewrite R. lia.
Qed.
Lemma counter_overflows umax lo h : (lo <= 0)%Z -> 1 <= h -> h + 3 <= umax -> parse_u umax lo (Z.of_nat h) (opened h) = Panic.
Proof.
  intros LO H FIT. unfold parse_u, parser_from_u. rewrite lex_m_ok by (rewrite opened_bytes; lia).
  destruct (opened_lex h) as (ts & -> & PS & LEN). cbn [bind].
  destruct umax as [|[|[|k]]]; try lia. set (s := opened h). set (p0 := mk_parser _ _ _ _ _).
  change (metadata_u (S (S (S k))) p0) with (Ok (false, p0)). cbn [bind].
  change (length (tokens p0)) with (S (S (S (length ts)))).
  replace (3 * S (S (S (length ts))) + 5) with (S (S (S (3 * length ts + 11)))) by lia.
  rewrite document_eq. generalize (3 * length ts + 11). intros f.
  unfold p0, push_op, set_ops. cbn [source tokens pos eof_stack ops].
  rewrite document_loop_overflows; auto. lia.
Qed.
