(** A family of inputs for which the counted parser reads quadratically many tokens. *)
From Verif Require Import Base Lexer LexSpec LexProofs LexFacts Ops Parser Steps StepsProofs StepsBound StepsFinal StreamProofs3.

(** ** Opening brackets only: every one of them is looked for a closing one *)
Definition bracket (t : token) : Prop := kind t = LeftSquareBracket /\ tlen t = 1.
Lemma brackets_scan n m : n <= m ->
  scan m (repeat c_lsquare n) = repeat (mk_piece LeftSquareBracket [c_lsquare] false) n.
Proof.
  revert m. induction n as [|n IH]; intros [|m] L; try reflexivity; [lia|]. cbn [repeat scan].
  assert (H : scan_one (c_lsquare :: repeat c_lsquare n) = Some (mk_piece LeftSquareBracket [c_lsquare] false, repeat c_lsquare n))
    by (destruct n; reflexivity).
  rewrite H, IH by lia. reflexivity.
Qed.
Lemma brackets_merge n :
  merge (repeat (mk_piece LeftSquareBracket [c_lsquare] false) n) = repeat (mk_piece LeftSquareBracket [c_lsquare] false) n.
Proof.
  induction n as [|[|n] IH]; try reflexivity. set (x := mk_piece LeftSquareBracket [c_lsquare] false) in *.
  change (merge (repeat x (S (S n)))) with (x :: merge (repeat x (S n))). rewrite IH. reflexivity.
 Qed.
Lemma brackets_annotate n o c r : Forall bracket (annotate o c r (repeat (mk_piece LeftSquareBracket [c_lsquare] false) n))
  /\ length (annotate o c r (repeat (mk_piece LeftSquareBracket [c_lsquare] false) n)) = n.
Proof.
  revert o c r. induction n as [|n IH]; intros o c r; cbn [repeat annotate length]; [auto|].
  destruct (IH (o + 0 + byte_len [c_lsquare]) (c + 1) (r + 0)) as [F L].
  split; [constructor; [|exact F]|f_equal; exact L]. unfold bracket, tlen. cbn. split; [reflexivity|lia].
Qed.
Lemma brackets_lex n : exists ts, lex (repeat c_lsquare n) = Ok ts /\ Forall bracket ts /\ length ts = n.
Proof.
  exists (spec_tokens (repeat c_lsquare n)). split; [apply lex_correct|].
  unfold spec_tokens, pieces, raw_pieces. rewrite brackets_scan by (rewrite repeat_length; lia).
  rewrite brackets_merge. apply brackets_annotate.
Qed.

Definition at_bracket (p : parser) : Prop :=
  Forall bracket (tokens p) /\ pos p < length (tokens p) /\ (eof_stack p = [] \/ eof_stack p = [StopTerminator]).
Lemma at_bracket_peek p : at_bracket p -> exists t, nth_error (tokens p) (pos p) = Some t /\ bracket t.
Proof.
  intros (F & L & _). destruct (nth_error (tokens p) (pos p)) as [t|] eqn:T; [|apply nth_error_None in T; lia].
  exists t. split; auto. rewrite Forall_forall in F. eapply F, nth_error_In, T.
Qed.
Lemma bracket_eat f p : at_bracket p -> (forall t, bracket t -> f t = false) -> eat f p = (None, p).
Proof. intros A F. destruct (at_bracket_peek p A) as (t & T & B). unfold eat. rewrite T, F; auto. Qed.
Lemma bracket_not_eof p : at_bracket p -> at_eof p = false.
Proof.
  intros A. destruct (at_bracket_peek p A) as (t & T & B & _). unfold at_eof, peek. rewrite T.
  destruct A as (_ & _ & [-> | ->]); cbn [existsb matches]; auto. rewrite B. reflexivity.
Qed.
Ltac nob := let k := fresh in intros ? (k & _); unfold is_three_dashes, is_tilde, is_underscore, is_star2, is_star, is_backtick, is_backtick3, is_bang, is_dash5,
  is_hash, is_two_bangs, is_left_curly2, is_terminator, is_collapsible_start, is_right_bracket; rewrite ?k; reflexivity.
Lemma delimited_none n o c p : at_bracket p -> (forall t, bracket t -> o t = false) -> delimited_k n o c p = Ok ((false, p), 1).
Proof. intros A O. unfold delimited_k. rewrite (bracket_eat _ _ A O). reflexivity. Qed.
Lemma eat_seq_none f fs p : at_bracket p -> (forall t, bracket t -> f t = false) -> eat_seq (f :: fs) p = (None, p).
Proof.
  intros A O. unfold eat_seq. cbn [eat_all]. rewrite (bracket_eat _ _ A O). destruct p; reflexivity.
Qed.

Definition same (p q : parser) : Prop := tokens q = tokens p /\ eof_stack q = eof_stack p /\ pos q = pos p.
Lemma same_at p q : same p q -> at_bracket p -> at_bracket q.
Proof. unfold same, at_bracket. intros (-> & -> & ->). auto. Qed.
Definition fails (c : nat) (f : parser -> run (bool * parser)) : Prop :=
  forall p, at_bracket p -> within (f p) (fun '(b, q) k => b = false /\ same p q /\ c * (length (tokens p) - pos p) <= k).
Lemma delimited_fails n o c : (forall t, bracket t -> o t = false) -> fails 0 (delimited_k n o c).
Proof. intros O p A. rewrite (delimited_none n o c p A O). cbn. unfold same. repeat split; auto; lia. Qed.
Lemma orelse_fails c d f g : fails c f -> fails d g -> fails (c + d) (orelse_k f g).
Proof.
  intros F G p A. unfold orelse_k. eapply within_bind; [apply F, A|]. intros [b q] k (-> & S & K).
  eapply within_mono; [apply G; eapply same_at; eauto|]. intros [b r] j (-> & S' & J).
  unfold same in *. destruct S as (S1 & S2 & S3). rewrite S1, S2, S3 in *. repeat split; try tauto. lia.
Qed.
(** No closing bracket: the search goes on to the end. *)
Lemma search_within st m p f : at_bracket p -> (forall t, bracket t -> m t = false) ->
  within (eat_until_loop_k f st m p) (fun '(o, q) k => o = None /\ same (set_pos st p) q /\ length (tokens p) - pos p <= k).
Proof.
  intros A M. revert p A. induction f as [|f IH]; intros p A; [exact I|]. cbn [eat_until_loop_k]. apply within_tick.
  destruct (at_bracket_peek p A) as (t & -> & B). apply within_tick. rewrite (bracket_not_eof p A), (M t B).
  destruct (Nat.eq_dec (pos p + 1) (length (tokens p))) as [E|E].
  - destruct f as [|f]; [exact I|]. cbn [eat_until_loop_k]. apply within_tick.
    destruct (nth_error _ _) eqn:X.
    + apply (f_equal (fun o => match o with None => true | _ => false end)) in X. fields.
      rewrite E, (proj2 (nth_error_None (tokens p) (length (tokens p))) (le_n _)) in X. discriminate.
    + apply within_ret. unfold same. fields. repeat split. lia.
  - eapply within_mono; [apply IH|].
    + destruct A as (F & L & S). unfold at_bracket. fields. split; [exact F|]. split; [lia|exact S].
    + intros [o q] k (-> & S & K). fields. split; auto. split; [exact S|lia].
Qed.
Lemma anchor_fails : fails 1 anchor_k.
Proof.
  intros p A. unfold anchor_k, title_k, delimited_k. 
  destruct (at_bracket_peek p A) as (t & T & B & L).
  assert (E : eat is_left_bracket (push_op (new_start NAnchor no_content) p)
              = (Some (pos p, pos p + 1), set_pos (pos p + 1) (push_op (new_start NAnchor no_content) p))).
  { unfold eat. fields. rewrite T. unfold is_left_bracket. rewrite B, L. reflexivity. }
  eapply within_bind with (P := fun '(b, q) k => b = false /\ same p q /\ 1 * (length (tokens p) - pos p) <= k).
  - rewrite E. apply within_tick.
    destruct (Nat.eq_dec (pos p + 1) (length (tokens p))) as [E'|E'].
    + eapply within_bind with (P := fun '(o, q) k => o = None /\ same p (set_pos (pos p) q)).
      * unfold eat_until_k, loop_fuel. cbn [eat_until_loop_k]. apply within_tick. fields.
        rewrite E', (proj2 (nth_error_None (tokens p) (length (tokens p))) (le_n _)). apply within_ret. unfold same. fields. auto.
      * intros [o q] k (-> & S). apply within_ret. split; auto. split; [exact S|]. lia.
    + eapply within_bind.
      * unfold eat_until_k. apply search_within; [|intros u (U1 & U2); unfold is_right_bracket; rewrite U1; reflexivity].
        destruct A as (F & LL & S). unfold at_bracket. fields. split; [exact F|]. split; [lia|exact S].
      * intros [o q] k (-> & S & K). fields. apply within_ret. split; auto. split; [|lia].
        unfold same in *. fields. tauto.
  - intros [b q] k (-> & S & K). cbn [negb]. apply within_ret. split; auto. split; [|lia]. unfold same in *. fields. tauto.
Qed.
Lemma bold_fails : fails 0 bold_k.
Proof. intros p A. unfold bold_k. rewrite (bracket_eat is_star2 p A) by nob. cbn. unfold same. repeat split. lia. Qed.
Lemma inline_fails : fails 1 inline_node_k.
Proof.
  change 1 with (0 + (0 + (0 + (1 + (0 + 0))))). unfold inline_node_k.
  repeat (apply orelse_fails; [solve [apply delimited_fails; nob|apply bold_fails|apply anchor_fails]|]).
  apply delimited_fails. nob.
Qed.
Lemma paragraph_loop_low f o p : at_bracket p ->
  within (paragraph_loop_k f o p) (fun _ k => (length (tokens p) - pos p) * (length (tokens p) - pos p) <= 2 * k).
Proof.
  revert o p. induction f as [|f IH]; intros o p A; [exact I|]. cbn [paragraph_loop_k]. apply within_tick.
  rewrite (bracket_not_eof p A).
  eapply within_bind; [apply inline_fails, A|]. intros [b q] k (-> & S & K).
  pose proof A as (F & L & ST). pose proof S as (S1 & S2 & S3).
  destruct (next_moves q) as (N1 & N2 & N3); [rewrite S1, S3; exact L|].
  destruct (Nat.eq_dec (pos p + 1) (length (tokens p))) as [E|E].
  - destruct f as [|f]; [exact I|]. cbn [paragraph_loop_k]. apply within_tick.
    assert (X : at_eof (next q) = true).
    { unfold at_eof, peek. rewrite N1, N3, S1, S3, E, (proj2 (nth_error_None (tokens p) (length (tokens p))) (le_n _)). reflexivity. }
    rewrite X. apply within_ret. unfold eof_reads. nia.
  - eapply within_mono; [apply IH|].
    + unfold at_bracket. rewrite N1, N2, N3, S1, S2, S3. split; [exact F|]. split; [lia|exact ST].
    + cbn beta. intros a j J. rewrite N1, N3, S1, S3 in J. unfold eof_reads. nia.
Qed.
Definition low (p : parser) (k : nat) : Prop := (length (tokens p) - pos p) * (length (tokens p) - pos p) <= 2 * k.
Lemma paragraph_low p : at_bracket p -> within (paragraph_k p) (fun _ k => low p k).
Proof.
  intros A. unfold paragraph_k. eapply within_bind; [apply (paragraph_loop_low _ _ (push_op (new_start NParagraph no_content) p)), A|].
  intros [o q] k K. eapply within_bind with (P := fun _ _ => True); [destruct (push_text_k _ _ _) as [[]| |]; exact I|].
  intros q' j _. apply within_ret. unfold low. fields. lia.
Qed.
Lemma list_fails p : at_bracket p -> within (list_k 0 p) (fun '(b, q) k => b = false /\ q = p).
Proof.
  intros A. destruct (at_bracket_peek p A) as (t & T & B & L). unfold list_k.
  eapply within_bind with (P := fun '(o, q) k => o = None /\ q = p); [|intros [o q] k (-> & ->); cbn; auto].
  replace (2 * length (tokens p) + 3) with (S (S (2 * length (tokens p) + 1))) by lia. cbn [list_inner_k list_item_k].
  destruct (negb (at_ col0 p)); [cbn; auto|]. cbn [Nat.eqb]. unfold get. rewrite Nat.add_0_r, T.
  unfold list_kind_of. rewrite B. cbn. auto.
Qed.
Lemma images_fails p : at_bracket p -> within (images_k p) (fun '(b, q) k => b = false /\ same p q).
Proof.
  intros A. destruct (at_bracket_peek p A) as (t & T & B & L). unfold images_k.
  eapply within_bind with (P := fun '(o, q) k => o = None /\ same p q); [|intros [o q] k (-> & S); cbn; auto].
  unfold loop_fuel. cbn [images_loop_k]. apply within_tick. unfold peek. rewrite T.
  unfold image_k. rewrite (bracket_eat is_bang p A) by nob. cbn. rewrite (bracket_not_eof p A). cbn. unfold same. auto.
Qed.
Lemma simple_block_low p : at_bracket p -> eof_stack p = [] -> within (simple_block_k p) (fun _ k => low p k).
Proof.
  intros A E. unfold simple_block_k, with_eof_k.
  assert (A1 : at_bracket (set_stack (StopTerminator :: eof_stack p) p)).
  { destruct A as (F & L & _). rewrite E. unfold at_bracket. fields. auto. }
  change (low p) with (low (set_stack (StopTerminator :: eof_stack p) p)).
  set (q := set_stack (StopTerminator :: eof_stack p) p) in *.
  eapply within_bind with (P := fun _ k => low q k).
  2:{ intros [u r] k K. apply within_ret. rewrite Nat.add_0_r. exact K. }
  eapply within_bind with (P := fun '(b, r) k => b = false /\ same q r).
  - unfold orelse_k. eapply within_bind; [apply list_fails, A1|]. intros [b r] k (-> & ->).
    eapply within_bind; [apply images_fails, A1|]. intros [b r] j (-> & S). pose proof (same_at _ _ S A1) as A2.
    unfold thematic_break_k. rewrite (bracket_eat is_dash5 r A2) by nob. unfold heading_k.
    cbn. rewrite (eat_seq_none is_hash _ r A2) by nob. cbn. auto.
  - intros [b r] k (-> & S). eapply within_mono; [apply paragraph_low; eapply same_at; eauto|].
    intros [u r'] j J. unfold low in *. destruct S as (S1 & S2 & S3). rewrite S1, S3 in J. lia.
Qed.
Lemma document_loop_low f p : at_bracket p -> eof_stack p = [] -> within (document_loop_k f p) (fun _ k => low p k).
Proof.
  intros A E. destruct f as [|f]; [exact I|]. cbn [document_loop_k]. apply within_tick. rewrite (bracket_not_eof p A).
  rewrite (bracket_eat is_terminator p A) by nob.
  eapply within_bind with (P := fun _ k => low p k).
  - apply within_tick. eapply within_bind with (P := fun '(b, q) k => b = false /\ q = p).
    + unfold orelse_k. unfold code_k, eat_fence. rewrite (eat_seq_none is_backtick3 _ p A) by nob.
      rewrite (bracket_eat is_backtick3 p A) by nob. cbn.
      destruct f as [|f]; [exact I|]. cbn [collapsible_k]. rewrite (eat_seq_none is_collapsible_start _ p A) by nob. cbn.
      unfold embed_k. rewrite (bracket_eat is_left_curly2 p A) by nob. cbn.
      unfold highlight_k. rewrite (eat_seq_none is_two_bangs _ p A) by nob. cbn. auto.
    + intros [b q] k (-> & ->). eapply within_bind; [apply (simple_block_low p A E)|].
      intros [u q] j J. apply within_ret. unfold low in *. lia.
  - intros q k K. destruct (pos p <? pos q); [|exact I].
    destruct (document_loop_k f q) as [[r j]| |]; cbn; auto. unfold low in *. lia.
Qed.
Lemma reads_quadratic n : exists ops k, parse_k (repeat c_lsquare n) = Ok (ops, k) /\ n * n <= 2 * k.
Proof.
  set (s := repeat c_lsquare n). destruct (parse_total s) as [ops P].
  destruct (proj1 (parse_k_ok s ops) P) as [k K]. exists ops, k. split; [exact K|].
  destruct n as [|n]; [lia|].
  assert (H : within (parse_k s) (fun _ k => S n * S n <= 2 * k)); [|rewrite K in H; exact H].
  unfold parse_k, parser_from. destruct (brackets_lex (S n)) as (ts & LX & F & L). fold s in LX. rewrite LX. cbn [bind].
  set (p0 := mk_parser s ts 0 [] []).
  assert (A : at_bracket p0) by (unfold at_bracket; cbn; repeat split; auto; lia).
  eapply within_bind with (P := fun p k => p = p0); [cbn; auto|]. intros p k0 ->.
  eapply within_bind with (P := fun '(_, p) k => p = p0).
  { unfold metadata_k. rewrite (delimited_none _ _ _ p0 A) by nob. cbn. reflexivity. }
  intros [b p] k1 ->. eapply within_bind with (P := fun _ k => low p0 k).
  - replace (3 * length (tokens p0) + 5) with (S (3 * length (tokens p0) + 4)) by lia. cbn [document_k].
    eapply within_bind; [apply (document_loop_low _ (push_op (new_start NDocument no_content) p0) A); reflexivity|].
    intros q j J. apply within_ret. rewrite Nat.add_0_r. exact J.
  - intros q j J. apply within_ret. unfold low, p0 in J. fields. rewrite L in J. lia.
Qed.
Lemma reads_not_linear c : exists s ops k, parse_k s = Ok (ops, k) /\ c * (length s + 1) < k.
Proof.
  set (n := 4 * c + 4). destruct (reads_quadratic n) as (ops & k & K & Q). exists (repeat c_lsquare n), ops, k.
  split; [exact K|]. rewrite repeat_length. unfold n in *. nia.
Qed.
