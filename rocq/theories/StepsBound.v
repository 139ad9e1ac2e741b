(** The number of token reads of the counted parser is bounded by a polynomial. *)
From Verif Require Import Base Lexer Ops Parser Steps.

(** What holds of the result and of the count of a run that ends normally. *)
Definition within {A} (m : run A) (Q : A -> nat -> Prop) : Prop :=
  match m with Ok (a, k) => Q a k | _ => True end.
Lemma within_tick {A} k (m : run A) Q : within m (fun a j => Q a (k + j)) -> within (tick k m) Q.
Proof. destruct m as [[a j]| |]; cbn; auto. Qed.
Lemma within_bind {A B} (m : run A) (f : A -> run B) (P : A -> nat -> Prop) Q :
  within m P -> (forall a k, P a k -> within (f a) (fun b j => Q b (k + j))) -> within (cbind m f) Q.
Proof.
  destruct m as [[a k]| |]; cbn; auto. intros H F. specialize (F a k H).
  destruct (f a) as [[b j]| |]; cbn in *; auto.
Qed.
Lemma within_ret {A} (a : A) (Q : A -> nat -> Prop) : Q a 0 -> within (ret a) Q.
Proof. auto. Qed.
Lemma within_lift {A} k (m : outcome A) (Q : A -> nat -> Prop) : (forall a, m = Ok a -> Q a k) -> within (lift k m) Q.
Proof. destruct m; cbn; auto. Qed.
Lemma within_mono {A} (m : run A) (P Q : A -> nat -> Prop) :
  within m P -> (forall a k, P a k -> Q a k) -> within m Q.
Proof. destruct m as [[a k]| |]; cbn; auto. Qed.

(** [n] tokens, and one test for the end reads at most [e] of them. *)
Definition ready (n e : nat) (p : parser) : Prop := length (tokens p) = n /\ pos p <= n /\ eof_reads p <= e.
Definition moved (p q : parser) : Prop :=
  tokens q = tokens p /\ eof_stack q = eof_stack p /\ pos p <= pos q <= length (tokens p).
Definition U (n e : nat) : nat := (n + 1) * (e + 1).
Lemma U_ge n e p : ready n e p -> 1 <= e /\ 2 * (n + 1) <= U n e /\ e + 1 <= U n e.
Proof. intros (L & P & R). unfold eof_reads, U in *. nia. Qed.
Lemma ready_moved n e p q : ready n e p -> moved p q -> ready n e q.
Proof. unfold ready, moved, eof_reads. intros (L & P & R) (T & S & Q). rewrite T, S. lia. Qed.
Lemma moved_refl n e p : ready n e p -> moved p p.
Proof. unfold ready, moved. intros (L & P & R). repeat split; lia. Qed.
Lemma moved_trans p q r : moved p q -> moved q r -> moved p r.
Proof. unfold moved. intros (T & S & P) (T' & S' & P'). rewrite T in *. repeat split; try congruence; lia. Qed.

Ltac fields := cbn [pos tokens eof_stack source ops push_op set_ops set_pos set_stack truncate_ops fst snd] in *.
Ltac merge :=
  repeat match goal with
  | H : _ /\ _ |- _ => destruct H
  end;
  repeat match goal with
  | H : tokens ?q = tokens ?p |- _ => revert H; let G := fresh in intros G; rewrite ?G in *; clear G
  | H : eof_stack ?q = eof_stack ?p |- _ => revert H; let G := fresh in intros G; rewrite ?G in *; clear G
  end.
Ltac fin :=
  unfold ready, moved, eof_reads in *; fields; merge; repeat match goal with |- _ /\ _ => split end; auto; try lia.
Lemma eat_cases pred p :
  (exists t, eat pred p = (Some (pos p, pos p + 1), set_pos (pos p + 1) p) /\ nth_error (tokens p) (pos p) = Some t
    /\ pred t = true /\ pos p < length (tokens p))
  \/ eat pred p = (None, p).
Proof.
  unfold eat. destruct (nth_error (tokens p) (pos p)) eqn:H; auto. destruct (pred t) eqn:P; auto.
  left. exists t. repeat split; auto. apply nth_error_Some. congruence.
Qed.
Lemma peek_lt p t : peek p = Some t -> pos p < length (tokens p).
Proof. unfold peek. intros H. apply nth_error_Some. congruence. Qed.
Lemma not_eof_lt p : at_eof p = false -> pos p < length (tokens p).
Proof. unfold at_eof. destruct (peek p) eqn:H; [|discriminate]. intros _. eapply peek_lt, H. Qed.

Lemma span_within n e p q a b :
  ready n e p -> b - a <= n -> within (span_k (a, b) q) (fun _ k => k <= U n e).
Proof.
  intros R H. pose proof (U_ge _ _ _ R). unfold span_k. apply within_lift. cbn [fst snd]. intros. lia.
Qed.
Lemma eat_until_within n e m p : ready n e p ->
  within (eat_until_k m p) (fun '(o, q) k => moved p q /\ k <= U n e /\
    match o with
    | Some ((a, b), (c, d)) => a <= b <= n /\ d = c + 1 /\ c < n /\ pos p < pos q
    | None => pos q = pos p
    end).
Proof.
  intros R. unfold eat_until_k, U.
  assert (H : forall f st q, ready n e q -> st <= pos q -> within (eat_until_loop_k f st m q) (fun '(o, q') k =>
    k <= (n - pos q + 1) * (e + 1) /\ tokens q' = tokens q /\ eof_stack q' = eof_stack q /\
    match o with
    | Some ((a, b), (c, d)) => a <= b <= n /\ d = c + 1 /\ c < n /\ pos q < pos q' <= n
    | None => pos q' = st
    end)).
  { induction f as [|f IH]; intros st q Rq L; [exact I|]. cbn [eat_until_loop_k]. apply within_tick.
    pose proof Rq as (Ln & Ps & Er).
    destruct (nth_error (tokens q) (pos q)) as [t|] eqn:T; [|apply within_ret; fields; repeat split; nia].
    assert (pos q < n) by (rewrite <- Ln; apply nth_error_Some; congruence).
    apply within_tick. destruct (at_eof q); [apply within_ret; fields; repeat split; nia|].
    destruct (m t); [apply within_ret; fields; repeat split; nia|].
    eapply within_mono; [apply IH|].
    - unfold ready, eof_reads in *. fields. lia.
    - fields. lia.
    - fields. intros [[[[a b] [c d]]|] q'] k (Hk & A); (split; [nia|]); fin. }
  eapply within_mono; [apply H; [exact R|lia]|].
  pose proof R as (Ln & Ps & Er). intros [[[[a b] [c d]]|] q] k (Hk & A); fin; nia.
Qed.
Lemma push_leaf_within n e p m s b c q :
  ready n e p -> snd s - fst s <= n -> snd b - fst b <= n -> snd c - fst c <= n ->
  within (push_leaf_k m s b c q) (fun '(r, q') k =>
    r = true /\ tokens q' = tokens q /\ eof_stack q' = eof_stack q /\ pos q' = pos q /\ k <= 3 * U n e).
Proof.
  intros R. destruct s, b, c. fields. intros. unfold push_leaf_k.
  repeat (eapply within_bind; [eapply span_within; eauto|]; intros ? ? ?; cbn beta).
  apply within_ret. fields. repeat split. lia.
Qed.

(** A parser that gives its result within [c] reads, moving forward exactly when it matches. *)
Definition attempt (n e c : nat) (f : parser -> run (bool * parser)) : Prop :=
  forall p, ready n e p ->
  within (f p) (fun '(b, q) k => moved p q /\ k <= c /\ if b then pos p < pos q else pos q = pos p).
Lemma orelse_attempt n e c d f g :
  attempt n e c f -> attempt n e d g -> attempt n e (c + d) (orelse_k f g).
Proof.
  intros F G p R. unfold orelse_k. eapply within_bind; [apply F, R|]. intros [b q] k (M & K & B).
  destruct b.
  - apply within_ret. split; [auto|]. split; [lia|auto].
  - eapply within_mono; [apply G; eapply ready_moved; eauto|]. intros [b q'] j (M' & K' & B').
    split; [eapply moved_trans; eauto|]. split; [lia|]. destruct b; lia.
Qed.
Lemma attempt_le n e c d f : c <= d -> attempt n e c f -> attempt n e d f.
Proof.
  intros L F p R. eapply within_mono; [apply F, R|]. intros [b q] k (M & K & B). repeat split; auto; try apply M. lia.
Qed.
Lemma no_attempt n e p q : ready n e p -> tokens q = tokens p -> eof_stack q = eof_stack p -> pos q = pos p -> moved p q.
Proof. unfold ready, moved. intros (L & P & R) -> -> ->. repeat split; lia. Qed.
Lemma delimited_attempt n e m o c : attempt n e (5 * U n e) (delimited_k m o c).
Proof.
  intros p R. pose proof (U_ge _ _ _ R) as (E1 & E2 & E3). pose proof R as (Ln & Ps & Er).
  unfold delimited_k. apply within_tick.
  destruct (eat_cases o p) as [(t & -> & T & P & L)| ->].
  2:{ apply within_ret. split; [eapply moved_refl; eauto|]. lia. }
  assert (R1 : ready n e (set_pos (pos p + 1) p)) by fin.
  eapply within_bind; [eapply eat_until_within; exact R1|].
  intros [[[[a b] [x y]]|] q] k (M & K & B).
  - eapply within_mono; [eapply push_leaf_within; [exact R|fields; lia..]|].
    intros [r q'] j (-> & T' & S' & P' & J). unfold moved in *. fields. rewrite T', S', P'.
    destruct M as (-> & -> & M). split; [|lia]. repeat split; lia.
  - apply within_ret. unfold moved in *. fields. destruct M as (-> & -> & M). split; [|lia]. repeat split; lia.
Qed.
Lemma destination_loop_within n e f c x p : ready n e p ->
  within (destination_loop_k f c x p) (fun '(r, q) k =>
    k <= (n - pos p + 1) * (e + 1) /\ tokens q = tokens p /\ eof_stack q = eof_stack p /\ pos p <= pos q <= n /\
    (r = x \/ pos p <= r < n)).
Proof.
  revert c x p. induction f as [|f IH]; intros c x p R; [exact I|]. cbn [destination_loop_k]. apply within_tick.
  pose proof R as (Ln & Ps & Er).
  destruct (peek p) as [t|] eqn:T; [|apply within_ret; fin; nia].
  apply peek_lt in T. apply within_tick. destruct (at_eof p); [apply within_ret; fin; nia|].
  assert (R1 : ready n e (set_pos (pos p + 1) p)) by fin.
  assert (H : forall c y, y = x \/ y = pos p ->
    within (destination_loop_k f c y (set_pos (pos p + 1) p)) (fun '(r, q) k =>
      1 + (eof_reads p + k) <= (n - pos p + 1) * (e + 1) /\ tokens q = tokens p /\ eof_stack q = eof_stack p /\
      pos p <= pos q <= n /\ (r = x \/ pos p <= r < n))).
  { intros c' y Y. eapply within_mono; [apply IH, R1|]. intros [r q] k (K & A). fin; nia. }
  destruct (kind t);
    lazymatch goal with
    | |- within (if _ then _ else _) _ => destruct (c - 1 =? 0); [apply within_ret; fin; nia|]
    | _ => idtac
    end; (eapply within_mono; [apply H; auto|intros [r q] k A; exact A]).
Qed.
Lemma destination_attempt n e : attempt n e (5 * U n e) destination_k.
Proof.
  intros p R. pose proof (U_ge _ _ _ R) as (E1 & E2 & E3). pose proof R as (Ln & Ps & Er).
  unfold destination_k. apply within_tick.
  destruct (eat_cases is_left_paren p) as [(t & -> & T & P & L)| ->].
  2:{ apply within_ret. split; [eapply moved_refl; eauto|]. lia. }
  assert (R1 : ready n e (set_pos (pos p + 1) p)) by fin.
  eapply within_bind; [eapply destination_loop_within; exact R1|].
  intros [r q] k (K & A). assert (k <= U n e) by (unfold U in *; fin; nia). clear K.
  destruct (pos p =? r) eqn:Q; [apply within_ret; fin|].
  apply Nat.eqb_neq in Q.
  repeat (eapply within_bind; [eapply span_within; [exact R|fields; lia]|]; intros ? ? ?; cbn beta).
  apply within_ret. fin.
Qed.
Lemma truncate_moved n p q : moved p q -> moved p (truncate_ops n q). Proof. intros M. exact M. Qed.
Lemma anchor_attempt n e : attempt n e (10 * U n e) anchor_k.
Proof.
  intros p R. pose proof (U_ge _ _ _ R) as (E1 & E2 & E3).
  unfold anchor_k. eapply within_bind; [apply (delimited_attempt n e NTitle is_left_bracket is_right_bracket); exact R|].
  intros [b q] k (M & K & B). destruct b; cbn [negb]; [|apply within_ret; fin].
  eapply within_bind; [apply destination_attempt; eapply ready_moved; [exact R|exact M]|].
  intros [b q'] j (M' & J & B'). destruct b; cbn [negb]; apply within_ret; fin.
Qed.
Lemma push_text_within n e p o x q : ready n e p -> x <= n ->
  within (push_text_k o x q) (fun q' k =>
    tokens q' = tokens q /\ eof_stack q' = eof_stack q /\ pos q' = pos q /\ k <= U n e).
Proof.
  intros R L. destruct o; cbn [push_text_k]; [|apply within_ret; fin].
  eapply within_bind; [eapply span_within; [exact R|lia]|]. intros c k K. apply within_ret. fin.
Qed.
Lemma insert_op_same i o p q : insert_op i o p = Ok q ->
  tokens q = tokens p /\ eof_stack q = eof_stack p /\ pos q = pos p.
Proof. unfold insert_op. destruct (_ <=? _); [|discriminate]. intros [= <-]. auto. Qed.
Lemma insert_text_within n e p o x i q : ready n e p -> x <= n ->
  within (insert_text_k o x i q) (fun q' k =>
    tokens q' = tokens q /\ eof_stack q' = eof_stack q /\ pos q' = pos q /\ k <= U n e).
Proof.
  intros R L. destruct o; cbn [insert_text_k]; [|apply within_ret; fin].
  eapply within_bind; [eapply span_within; [exact R|lia]|]. intros c k K. apply within_lift.
  intros q' H. apply insert_op_same in H. fin.
Qed.
Lemma next_moves p : pos p < length (tokens p) ->
  tokens (next p) = tokens p /\ eof_stack (next p) = eof_stack p /\ pos (next p) = pos p + 1.
Proof. intros H. unfold next. apply Nat.ltb_lt in H. rewrite H. auto. Qed.
Lemma bold_loop_within n e f o p : ready n e p ->
  within (bold_loop_k f o p) (fun '(b, q) k => moved p q /\ k <= 14 * U n e * (n - pos p + 1)).
Proof.
  revert o p. induction f as [|f IH]; intros o p R; [exact I|]. cbn [bold_loop_k]. apply within_tick.
  pose proof (U_ge _ _ _ R) as (E1 & E2 & E3). pose proof R as (Ln & Ps & Er).
  destruct (peek p) as [t|] eqn:T; [|apply within_ret; fin; nia].
  apply peek_lt in T. apply within_tick. destruct (at_eof p); [apply within_ret; fin; nia|]. apply within_tick.
  destruct (eat_cases is_star2 p) as [(t' & -> & _ & _ & L)| ->].
  - eapply within_bind; [eapply push_text_within; [exact R|exact Ps]|]. intros p2 k K.
    eapply within_bind; [eapply span_within; [exact R|lia]|]. intros c j J. apply within_ret. fin; nia.
  - eapply within_bind; [eapply orelse_attempt; [apply delimited_attempt|apply delimited_attempt|exact R]|].
    intros [b p2] k (M & K & B). destruct b.
    + eapply within_bind; [eapply insert_text_within; [exact R|exact Ps]|]. intros p3 j J.
      assert (R3 : ready n e p3) by fin.
      eapply within_mono; [apply IH, R3|]. intros [b q] i (M' & K'). fin. nia.
    + destruct (next_moves p2) as (N1 & N2 & N3); [fin|].
      assert (R3 : ready n e (next p2)) by fin.
      eapply within_mono; [apply IH, R3|]. intros [b q] i (M' & K'). fin. nia.
Qed.
Definition V (n e : nat) : nat := (n + 1) * U n e.
Lemma V_ge n e : U n e <= V n e. Proof. unfold V. nia. Qed.
Lemma bold_attempt n e : attempt n e (16 * V n e) bold_k.
Proof.
  intros p R. pose proof (U_ge _ _ _ R) as (E1 & E2 & E3). pose proof R as (Ln & Ps & Er). pose proof (V_ge n e).
  unfold bold_k. apply within_tick.
  destruct (eat_cases is_star2 p) as [(t' & -> & _ & _ & L)| ->]; [|apply within_ret; fin].
  eapply within_bind; [eapply span_within; [exact R|lia]|]. intros c j J.
  assert (R1 : ready n e (push_op (new_start NBold c) (set_pos (pos p + 1) p))) by fin.
  eapply within_bind; [apply bold_loop_within, R1|]. intros [b q] k (M & K).
  assert (k <= 14 * V n e) by (unfold V; fields; nia). clear K.
  destruct b; apply within_ret; fin.
Qed.
Lemma inline_attempt n e : attempt n e (46 * V n e) inline_node_k.
Proof.
  pose proof (V_ge n e).
  eapply attempt_le;
    [|unfold inline_node_k;
      repeat (eapply orelse_attempt; [solve [apply delimited_attempt|apply bold_attempt|apply anchor_attempt]|]);
      apply delimited_attempt]. lia.
Qed.
Lemma paragraph_loop_within n e f o p : ready n e p ->
  within (paragraph_loop_k f o p) (fun '(r, q) k => moved p q /\ k <= 48 * V n e * (pos q - pos p + 1)).
Proof.
  revert o p. induction f as [|f IH]; intros o p R; [exact I|]. cbn [paragraph_loop_k]. apply within_tick.
  pose proof (U_ge _ _ _ R) as (E1 & E2 & E3). pose proof R as (Ln & Ps & Er). pose proof (V_ge n e) as HV.
  destruct (at_eof p) eqn:AE; [apply within_ret; fin; nia|].
  apply not_eof_lt in AE.
  eapply within_bind; [apply inline_attempt, R|]. intros [b p2] k (M & K & B). destruct b.
  + eapply within_bind; [eapply insert_text_within; [exact R|exact Ps]|]. intros p3 j J.
    assert (R3 : ready n e p3) by fin.
    eapply within_mono; [apply IH, R3|]. intros [b q] i (M' & K'). fin. nia.
  + destruct (next_moves p2) as (N1 & N2 & N3); [fin|].
    assert (R3 : ready n e (next p2)) by fin.
    eapply within_mono; [apply IH, R3|]. intros [b q] i (M' & K'). fin. nia.
Qed.
Lemma paragraph_within n e p : ready n e p ->
  within (paragraph_k p) (fun '(_, q) k => moved p q /\ k <= 49 * V n e * (pos q - pos p + 1)).
Proof.
  intros R. pose proof R as (Ln & Ps & Er). pose proof (V_ge n e) as HV. unfold paragraph_k.
  assert (R1 : ready n e (push_op (new_start NParagraph no_content) p)) by fin.
  eapply within_bind; [apply paragraph_loop_within, R1|]. intros [o q] k (M & K).
  eapply within_bind; [eapply push_text_within; [exact R|fin]|]. intros q' j J. apply within_ret. fin; nia.
Qed.
Lemma heading_loop_within n e f o p : ready n e p ->
  within (heading_loop_k f o p) (fun '(r, q) k => moved p q /\ k <= 13 * U n e * (n - pos p + 1)).
Proof.
  revert o p. induction f as [|f IH]; intros o p R; [exact I|]. cbn [heading_loop_k]. apply within_tick.
  pose proof (U_ge _ _ _ R) as (E1 & E2 & E3). pose proof R as (Ln & Ps & Er).
  destruct (peek p) as [t|] eqn:T; [|apply within_ret; fin; nia].
  apply peek_lt in T. apply within_tick. destruct (at_eof p); [apply within_ret; fin; nia|].
  eapply within_bind; [apply anchor_attempt, R|]. intros [b p2] k (M & K & B). destruct b.
  + eapply within_bind; [eapply insert_text_within; [exact R|exact Ps]|]. intros p3 j J.
    assert (R3 : ready n e p3) by fin.
    eapply within_mono; [apply IH, R3|]. intros [b q] i (M' & K'). fin. nia.
  + destruct (next_moves p2) as (N1 & N2 & N3); [fin|].
    assert (R3 : ready n e (next p2)) by fin.
    eapply within_mono; [apply IH, R3|]. intros [b q] i (M' & K'). fin. nia.
Qed.
Lemma eat_all_moves fs p :
  let (b, q) := eat_all fs p in
  tokens q = tokens p /\ eof_stack q = eof_stack p /\ source q = source p /\ ops q = ops p /\ pos p <= pos q /\
  (b = true -> pos q = pos p + length fs /\ (fs <> [] -> pos q <= length (tokens p))).
Proof.
  revert p. induction fs as [|g fs IH]; intros p; cbn [eat_all length]; [fin; intros; fin; congruence|].
  destruct (eat_cases g p) as [(t & -> & _ & _ & L)| ->]; [|fin; discriminate].
  specialize (IH (set_pos (pos p + 1) p)). destruct (eat_all fs _) as [b q]. fields.
  destruct IH as (A1 & A2 & A3 & A4 & A5 & A6). repeat split; auto; try lia. 1: destruct (A6 H); lia.
  intros _. destruct (A6 H) as (X & Y). destruct fs; cbn [length] in *; [lia|apply Y; discriminate].
Qed.
Lemma eat_seq_cases fs p : fs <> [] ->
  (exists q, eat_seq fs p = (Some (pos p, pos q), q) /\ tokens q = tokens p /\ eof_stack q = eof_stack p /\
     pos q = pos p + length fs /\ pos q <= length (tokens p))
  \/ (exists q, eat_seq fs p = (None, q) /\ tokens q = tokens p /\ eof_stack q = eof_stack p /\ pos q = pos p).
Proof.
  intros NE. unfold eat_seq. pose proof (eat_all_moves fs p) as H. destruct (eat_all fs p) as [[] q].
  - left. destruct H as (A1 & A2 & A3 & A4 & A5 & A6). destruct (A6 eq_refl). eauto 8.
  - right. exists (set_pos (pos p) q). fin.
Qed.
Lemma heading_attempt n e : attempt n e (17 * V n e) heading_k.
Proof.
  intros p R. pose proof (U_ge _ _ _ R) as (E1 & E2 & E3). pose proof R as (Ln & Ps & Er). pose proof (V_ge n e).
  unfold heading_k. apply within_tick.
  destruct (eat_seq_cases [is_hash; is_space_1] p) as [(q & -> & T & S & P & L)|(q & -> & T & S & P)];
    [discriminate| |apply within_ret; fin].
  cbn [length] in P. eapply within_bind; [eapply span_within; [exact R|lia]|]. intros c j J.
  assert (R1 : ready n e (push_op (new_start NHeading c) q)) by fin.
  eapply within_bind; [apply heading_loop_within, R1|]. intros [o q2] k (M & K).
  assert (k <= 13 * V n e) by (unfold V; fields; nia). clear K.
  eapply within_bind; [eapply push_text_within; [exact R|fin]|]. intros q' i I. apply within_ret. fin.
Qed.
Lemma image_attempt n e : attempt n e (14 * U n e) image_k.
Proof.
  intros p R. pose proof (U_ge _ _ _ R) as (E1 & E2 & E3). pose proof R as (Ln & Ps & Er).
  unfold image_k. apply within_tick.
  destruct (eat_cases is_bang p) as [(t' & -> & _ & _ & L)| ->]; [|apply within_ret; fin].
  eapply within_bind; [eapply span_within; [exact R|lia]|]. intros c j J.
  assert (R1 : ready n e (push_op (new_start NImage c) (set_pos (pos p + 1) p))) by fin.
  eapply within_bind; [apply (delimited_attempt n e NTitle is_left_bracket is_right_bracket); exact R1|].
  intros [b q] k (M & K & B). destruct b; cbn [negb]; [|apply within_ret; fin].
  pose proof (ready_moved _ _ _ _ R1 M) as R2.
  eapply within_bind; [apply destination_attempt, R2|].
  intros [b q'] i (M' & I & B'). destruct b; cbn [negb]; [|apply within_ret; fin].
  apply within_tick. destruct (eat_cases is_eol q') as [(t & -> & _ & _ & L')| ->].
  - eapply within_bind; [eapply span_within; [exact R|lia]|]. intros c' h H. apply within_ret. fin.
  - apply within_tick. pose proof (ready_moved _ _ _ _ R2 M') as R3. destruct (at_eof q'); apply within_ret; fin.
Qed.
Lemma images_loop_within n e f a b c p : ready n e p ->
  within (images_loop_k f a b c p) (fun '(o, q) k => tokens q = tokens p /\ eof_stack q = eof_stack p /\
    k <= 16 * U n e * (n - pos p + 1) /\
    match o with None => pos q = a | Some d => pos p <= pos q <= n /\ (d = c /\ pos q = pos p \/ c < d /\ pos p < pos q)
    end).
Proof.
  revert c p. induction f as [|f IH]; intros c p R; [exact I|]. cbn [images_loop_k]. apply within_tick.
  pose proof (U_ge _ _ _ R) as (E1 & E2 & E3). pose proof R as (Ln & Ps & Er).
  destruct (peek p) as [t|] eqn:T; [|apply within_ret; fin; nia].
  apply peek_lt in T.
  eapply within_bind; [apply image_attempt, R|]. intros [i p2] k (M & K & B).
  pose proof (ready_moved _ _ _ _ R M) as R2. destruct i.
  - eapply within_mono; [apply IH, R2|]. intros [o q] i (A & A' & K' & A''). destruct o; fin; nia.
  - apply within_tick. destruct (at_eof p2); apply within_ret; fin; nia.
Qed.
Lemma images_attempt n e : attempt n e (16 * V n e) images_k.
Proof.
  intros p R. unfold images_k. eapply within_bind; [apply images_loop_within, R|].
  intros [o q] k (T & S & K & O). assert (k <= 16 * V n e) by (unfold V in *; nia). clear K.
  pose proof R as (Ln & Ps & Er). destruct o as [d|]; [|apply within_ret; fin].
  destruct O as (O1 & O2).
  assert (X : if 0 <? d then pos p < pos q else pos q = pos p).
  { destruct (0 <? d) eqn:D; [apply Nat.ltb_lt in D|apply Nat.ltb_ge in D]; lia. }
  destruct (1 <? d); [|apply within_ret; fin].
  eapply within_bind with (P := fun q' k => insert_op (length (ops p)) (new_start NImages no_content) q = Ok q' /\ k = 0).
  { apply within_lift. auto. }
  intros q' j (I & J). apply insert_op_same in I. apply within_ret. destruct (0 <? d); fin.
Qed.
Lemma modifier_attempt n e : attempt n e (4 * U n e) modifier_k.
Proof.
  intros p R. pose proof (U_ge _ _ _ R) as (E1 & E2 & E3). pose proof R as (Ln & Ps & Er).
  unfold modifier_k. apply within_tick. destruct (is_some_and col0 (peek p)); [apply within_ret; fin|].
  eapply within_bind; [eapply eat_until_within; exact R|].
  intros [[[[a b] [x y]]|] q] k (M & K & B); [|apply within_ret; fin].
  assert (1 <= n) by fin.
  repeat (eapply within_bind; [eapply span_within; [exact R|fields; lia]|]; intros ? ? ?; cbn beta).
  apply within_ret. fin.
Qed.
Lemma thematic_break_attempt n e : attempt n e (2 * U n e) thematic_break_k.
Proof.
  intros p R. pose proof (U_ge _ _ _ R) as (E1 & E2 & E3). pose proof R as (Ln & Ps & Er).
  unfold thematic_break_k. apply within_tick.
  destruct (eat_cases is_dash5 p) as [(t' & -> & _ & _ & L)| ->]; [|apply within_ret; fin].
  eapply within_bind; [eapply span_within; [exact R|lia]|]. intros c j J. apply within_ret. fin.
Qed.

(** ** Lists: an item that is not there costs five reads, so the cost is proportional to what is consumed *)
Definition roomy (n e r : nat) (p : parser) : Prop := length (tokens p) = n /\ pos p <= n /\ eof_reads p + r <= e.
Lemma roomy_ready n e r p : roomy n e r p -> ready n e p.
Proof. unfold roomy, ready. lia. Qed.
Lemma roomy_moved n e r p q : roomy n e r p -> moved p q -> roomy n e r q.
Proof. unfold roomy, moved, eof_reads. intros (L & P & R) (T & S & Q). rewrite T, S. lia. Qed.
Lemma with_eof_within {A} n e c r p (f : parser -> run (A * parser)) (Q : parser -> A -> nat -> nat -> Prop) :
  roomy n e (match_reads c + r) p ->
  (forall q, roomy n e r q -> pos q = pos p -> tokens q = tokens p ->
     within (f q) (fun '(a, q') k => moved q q' /\ Q p a (pos q') k)) ->
  within (with_eof_k c f p) (fun '(a, q) k => moved p q /\ Q p a (pos q) k).
Proof.
  intros R F. unfold with_eof_k. eapply within_bind; [apply F; [|reflexivity..]|].
  - unfold roomy, eof_reads in *. cbn [set_stack tokens pos eof_stack stack_reads fold_right] in *.
    change (fold_right _ 0 (eof_stack p)) with (stack_reads (eof_stack p)). lia.
  - intros [a q] k (M & H). apply within_ret. rewrite Nat.add_0_r. unfold moved in *. fields.
    destruct M as (-> & -> & M). auto.
Qed.
Definition boundary_reads (n : nat) : nat := 1 + 4 * (n + 2).
Lemma item_text_within n e l k p : roomy n e (boundary_reads n) p -> l <= n ->
  within (with_eof_k (StopListBoundary l k) paragraph_k p) (fun '(_, q) k =>
    moved p q /\ k <= 49 * V n e * (pos q - pos p + 1)).
Proof.
  intros R L.
  apply (with_eof_within n e _ 0 p paragraph_k (fun p _ q k => k <= 49 * V n e * (q - pos p + 1))).
  - unfold roomy, boundary_reads in *. cbn [match_reads]. lia.
  - intros q R1 P T. eapply within_mono; [apply paragraph_within; eapply roomy_ready, R1|].
    rewrite <- P. auto.
Qed.
Lemma lists_within n e f :
  (forall l k p, roomy n e (boundary_reads n) p -> l <= pos p ->
    within (list_item_k f l k p) (fun '(o, q) c => moved p q /\
      match o with
      | None => pos q = pos p /\ c <= 5
      | Some _ => pos p < pos q /\ c <= 60 * V n e * (pos q - pos p)
      end)) /\
  (forall l p, roomy n e (boundary_reads n) p -> l <= pos p ->
    within (list_inner_k f l p) (fun '(o, q) c => moved p q /\ c <= 60 * V n e * (pos q - pos p) + 5 /\
      match o with None => pos q = pos p | Some _ => pos p < pos q end)) /\
  (forall l k p, roomy n e (boundary_reads n) p -> l <= pos p ->
    within (list_items_k f l k p) (fun q c => moved p q /\ c <= 60 * V n e * (pos q - pos p) + 5)).
Proof.
  induction f as [|f (I1 & I2 & I3)]; [repeat split; intros; exact I|].
  split; [|split]; intros.
  - rename H into R, H0 into L. cbn [list_item_k]. apply within_tick.
    pose proof (roomy_ready _ _ _ _ R) as R'. pose proof (U_ge _ _ _ R') as (E1 & E2 & E3).
    pose proof R' as (Ln & Ps & Er). pose proof (V_ge n e).
    destruct (negb (at_ col0 p)); [apply within_ret; fin|].
    destruct (get _ p) as [m|]; [|apply within_ret; fin].
    destruct (list_kind_of m) as [lk|]; [|apply within_ret; fin]. apply within_tick.
    destruct (eat_seq_cases (if l =? 0 then [is_list_marker k; is_space_1]
                             else [is_indent l; is_list_marker k; is_space_1]) p)
      as [(q & -> & T & S & P & L')|(q & -> & T & S & P)];
      [destruct (l =? 0); discriminate| |apply within_ret; fin].
    assert (P' : pos p + 2 <= pos q) by (rewrite P; destruct (l =? 0); cbn [length]; lia). clear P.
    eapply within_bind; [eapply span_within; [exact R'|lia]|]. intros c j J.
    assert (R1 : roomy n e (boundary_reads n) (push_op (new_start NListItem c) q)).
    { unfold roomy, eof_reads in *. fields. rewrite T, S. lia. }
    eapply within_bind; [apply item_text_within; [exact R1|lia]|]. intros [u p3] i (M & K).
    pose proof (roomy_moved _ _ _ _ _ R1 M) as R3.
    eapply within_bind with (P := fun q c => moved p3 q /\ c <= e + 60 * V n e * (pos q - pos p3) + 5).
    + apply within_tick. pose proof (roomy_ready _ _ _ _ R3) as (_ & _ & Er3). destruct (negb (at_eof p3)).
      * eapply within_bind; [apply I2; [exact R3|fin]|]. intros [o p4] h (M' & H' & _). apply within_ret. fin.
      * apply within_ret. split; [eapply moved_refl, roomy_ready, R3|lia].
    + intros p4 h (M' & H'). apply within_ret. fin. nia.
  - rename H into R, H0 into L. cbn [list_inner_k].
    eapply within_bind; [apply I1; assumption|]. intros [[lk|] p1] j (M & J).
    2:{ apply within_ret. fin. }
    eapply within_bind with
      (P := fun q k => insert_op (length (ops p)) (new_start (list_kind_node lk) no_content) p1 = Ok q /\ k = 0).
    { apply within_lift. auto. }
    intros p2 i (I & K). apply insert_op_same in I.
    assert (R2 : roomy n e (boundary_reads n) p2).
    { eapply roomy_moved; [exact R|]. fin. }
    eapply within_bind; [apply I3; [exact R2|fin]|]. intros p3 h (M' & H'). apply within_ret. unfold roomy in *. fin. nia.
  - rename H into R, H0 into L. cbn [list_items_k].
    eapply within_bind; [apply I1; assumption|]. intros [[lk|] p1] j (M & J).
    2:{ apply within_ret. fin. }
    eapply within_mono; [apply I3; [eapply roomy_moved; eauto|fin]|].
    intros q i (M' & K). unfold roomy in *. fin. nia.
Qed.
Lemma list_within n e p : roomy n e (boundary_reads n) p ->
  within (list_k 0 p) (fun '(b, q) c => moved p q /\ c <= 60 * V n e * (pos q - pos p) + 5 /\
    if b then pos p < pos q else pos q = pos p).
Proof.
  intros R. unfold list_k. eapply within_bind; [apply lists_within; [exact R|lia]|].
  intros [o q] c (M & K & O). apply within_ret. destruct o; fin.
Qed.

(** ** The blocks *)
Definition W (n e : nat) : nat := (n + 1) * V n e.
Lemma W_ge n e : V n e <= W n e. Proof. unfold W. nia. Qed.
Lemma icon_attempt n e : attempt n e (6 * U n e) icon_k.
Proof.
  intros p R. pose proof (U_ge _ _ _ R) as (E1 & E2 & E3). pose proof R as (Ln & Ps & Er).
  unfold icon_k. apply within_tick.
  destruct (eat_seq_cases [is_one_bang; is_space_1] p) as [(q & -> & T & S & P & L)|(q & -> & T & S & P)];
    [discriminate| |apply within_ret; fin].
  cbn [length] in P. assert (R1 : ready n e q) by fin.
  eapply within_bind; [eapply eat_until_within; exact R1|].
  intros [[[[a b] [x y]]|] q'] k (M & K & B).
  - eapply within_mono; [eapply push_leaf_within; [exact R|fields; lia..]|].
    intros [r q2] j (-> & T' & S' & P' & J). fin.
  - apply within_ret. fin.
Qed.
Lemma highlight_loop_within n e f p : roomy n e 2 p ->
  within (highlight_loop_k f p) (fun '(b, q) k => moved p q /\ k <= 110 * V n e * (n - pos p + 1) /\
    (b = true -> pos p < pos q)).
Proof.
  revert p. induction f as [|f IH]; intros p RR; [exact I|]. cbn [highlight_loop_k]. apply within_tick.
  pose proof (roomy_ready _ _ _ _ RR) as R.
  pose proof (U_ge _ _ _ R) as (E1 & E2 & E3). pose proof R as (Ln & Ps & Er). pose proof (V_ge n e).
  destruct (at_eof p) eqn:AE; [apply within_ret; fin; try nia; discriminate|]. apply not_eof_lt in AE.
  apply within_tick. destruct (eat_cases is_two_bangs p) as [(t' & -> & _ & _ & L)| ->].
  - apply within_tick. destruct (eat_cases is_eol (set_pos (pos p + 1) p)) as [(t & -> & _ & _ & L')| ->];
      (eapply within_bind; [eapply span_within; [exact R|fields; lia]|]; intros c j J; apply within_ret; fin; nia).
  - eapply within_bind with (P := fun q k => moved p q /\ k <= 1 + U n e).
    { apply within_tick. destruct (eat_cases is_terminator p) as [(t & -> & _ & _ & L')| ->].
      - eapply within_bind; [eapply span_within; [exact R|fields; lia]|]. intros c j J. apply within_ret. fin.
      - apply within_ret. fin. }
    intros p2 k (M & K). pose proof (roomy_moved _ _ _ _ _ RR M) as RR2.
    eapply within_bind with (P := fun '(_, q) k => moved p2 q /\ k <= 49 * V n e * (pos q - pos p2 + 1)).
    { unfold with_eofs_k. eapply within_bind; [apply (paragraph_within n e)|].
      - unfold roomy, ready, eof_reads in *. fields. cbn [rev_append stack_reads fold_right match_reads].
        change (fold_right _ 0 (eof_stack p2)) with (stack_reads (eof_stack p2)). lia.
      - intros [u q] i (M' & K'). apply within_ret. unfold moved in *. fields. destruct M' as (-> & -> & M').
        cbn [rev_append length skipn]. repeat split; try lia. }
    intros [u p3] i (M' & K'). destruct (pos p <? pos p3) eqn:PR; [|exact I]. apply Nat.ltb_lt in PR.
    eapply within_mono; [apply IH; eapply roomy_moved; eauto|]. intros [b q] h (M2 & H2 & B2).
    unfold roomy in *. fin.
    assert (pos p3 - pos p2 + 1 <= pos p3 - pos p + 1) by lia.
    assert (n - pos p + 1 = (n - pos p3 + 1) + (pos p3 - pos p)) by lia. nia.
Qed.
Lemma highlight_within n e p : roomy n e 2 p ->
  within (highlight_k p) (fun '(b, q) k => moved p q /\ k <= 125 * W n e /\ if b then pos p < pos q else pos q = pos p).
Proof.
  intros RR. pose proof (roomy_ready _ _ _ _ RR) as R.
  pose proof (U_ge _ _ _ R) as (E1 & E2 & E3). pose proof R as (Ln & Ps & Er). pose proof (V_ge n e). pose proof (W_ge n e).
  unfold highlight_k. apply within_tick.
  destruct (eat_seq_cases [is_two_bangs; fun t => is_space_1 t || is_eol t] p)
    as [(q & -> & T & S & P & L)|(q & -> & T & S & P)]; [discriminate| |apply within_ret; fin].
  cbn [length] in P. apply within_tick.
  eapply within_bind; [eapply span_within; [exact R|lia]|]. intros c j J.
  assert (M0 : moved p (push_op (new_start NHighlight c) q)) by fin.
  eapply within_bind with (P := fun '(_, r) k => moved (push_op (new_start NHighlight c) q) r /\ k <= 4 * U n e).
  { destruct (negb _); [|apply within_ret; fin].
    eapply within_mono; [apply modifier_attempt; eapply ready_moved; eauto|]. intros [b r] k (M & K & _). auto. }
  intros [b p3] k (M & K). pose proof (roomy_moved _ _ _ _ _ RR (moved_trans _ _ _ M0 M)) as R3.
  eapply within_bind.
  { apply (with_eof_within n e StopTerminator 1 p3 icon_k (fun _ _ _ k => k <= 6 * U n e)).
    - unfold roomy in *. cbn [match_reads]. lia.
    - intros r R4 _ _. eapply within_mono; [apply icon_attempt; eapply roomy_ready, R4|].
      intros [b' r'] i (M' & K' & _). auto. }
  intros [b' p4] i (M' & K'). apply within_tick.
  pose proof (moved_trans _ _ _ (moved_trans _ _ _ M0 M) M') as M4.
  destruct (negb _); [apply within_ret; fin|].
  eapply within_bind; [apply (highlight_loop_within n e); eapply roomy_moved; [exact RR|exact M4]|].
  intros [b2 p5] h (M5 & H5 & B5). assert (h <= 110 * W n e) by (unfold W; nia). clear H5.
  destruct b2; apply within_ret; fin.
Qed.
Lemma embed_attempt n e : attempt n e (12 * U n e) embed_k.
Proof.
  intros p R. pose proof (U_ge _ _ _ R) as (E1 & E2 & E3). pose proof R as (Ln & Ps & Er).
  unfold embed_k. apply within_tick.
  destruct (eat_cases is_left_curly2 p) as [(t' & -> & _ & _ & L)| ->]; [|apply within_ret; fin].
  assert (R1 : ready n e (set_pos (pos p + 1) p)) by fin.
  eapply within_bind; [eapply eat_until_within; exact R1|].
  intros [[[[a b] [x y]]|] q] k (M & K & B); [|apply within_ret; fin].
  pose proof (ready_moved _ _ _ _ R1 M) as R2.
  eapply within_bind; [eapply eat_until_within; exact R2|].
  intros [[[[a' b'] [x' y']]|] q'] k' (M' & K' & B'); [|apply within_ret; fin].
  pose proof (ready_moved _ _ _ _ R2 M') as R3. apply within_tick. unfold close_line, close_reads.
  assert (X : eof_reads q' <= e) by apply R3.
  destruct (eat_cases is_eol q') as [(t & -> & _ & _ & L')| ->].
  - fields. repeat (eapply within_bind; [eapply span_within; [exact R|fin]|]; intros ? ? ?; cbn beta).
    apply within_ret. fin.
  - destruct (at_block_boundary q'); [|apply within_ret; fin].
    fields. repeat (eapply within_bind; [eapply span_within; [exact R|fin]|]; intros ? ? ?; cbn beta).
    apply within_ret. fin.
Qed.
Lemma eat_fence_cases p :
  (exists q, eat_fence p = (Some (pos p, pos q), q) /\ tokens q = tokens p /\ eof_stack q = eof_stack p /\
     pos p < pos q <= length (tokens p))
  \/ (exists q, eat_fence p = (None, q) /\ tokens q = tokens p /\ eof_stack q = eof_stack p /\ pos q = pos p).
Proof.
  unfold eat_fence.
  destruct (eat_seq_cases [is_backtick3; is_eol] p) as [(q & -> & T & S & P & L)|(q & -> & T & S & P)]; [discriminate| |].
  - cbn [length] in P. left. exists q. fin.
  - destruct (eat_cases is_backtick3 q) as [(t & -> & _ & _ & L')| ->].
    + left. exists (set_pos (pos q + 1) q). split; [fields; rewrite P; reflexivity|fin].
    + right. eauto.
Qed.
Lemma code_attempt n e : attempt n e (13 * U n e) code_k.
Proof.
  intros p R. pose proof (U_ge _ _ _ R) as (E1 & E2 & E3). pose proof R as (Ln & Ps & Er).
  unfold code_k. apply within_tick.
  destruct (eat_fence_cases p) as [(q & -> & T & S & P)|(q & -> & T & S & P)]; [|apply within_ret; fin].
  apply within_tick. eapply within_bind; [eapply span_within; [exact R|lia]|]. intros c j J.
  eapply within_bind with (P := fun '(o, r) k => moved q r /\ k <= 5 * U n e /\
    match o with
    | Some ((a, b), (c, d)) => a <= b <= n /\ c <= n /\ d = c + 1 /\ pos p < pos r
    | None => True
    end).
  { unfold with_no_stops_k.
    assert (R0 : ready n e (set_stack [] (push_op (new_start NCode c) q))).
    { unfold ready, eof_reads in *. fields. cbn [stack_reads fold_right]. rewrite T. lia. }
    eapply within_bind with (P := fun '(o, r) k => moved (set_stack [] (push_op (new_start NCode c) q)) r /\ k <= 5 * U n e /\
    match o with
    | Some ((a, b), (c, d)) => a <= b <= n /\ c <= n /\ d = c + 1 /\ pos p < pos r
    | None => True
    end).
    - eapply within_bind with (P := fun '(_, r) k => moved (set_stack [] (push_op (new_start NCode c) q)) r /\ k <= 4 * U n e).
      + destruct (negb _); [|apply within_ret; fin].
        eapply within_mono; [apply modifier_attempt, R0|]. intros [b r] k (M & K & _). auto.
      + intros [b r] k (M & K). eapply within_mono; [apply (eat_until_within n e); eapply ready_moved; eauto|].
        intros [[[[a b'] [x y]]|] q'] k' (M' & K' & B').
        all: split; [eapply moved_trans; eauto|]. all: fin.
    - intros [o r] k (M & K & B). apply within_ret. unfold moved in *. fields. destruct M as (-> & M1 & M).
      split; [auto|]. rewrite Nat.add_0_r. split; [lia|]. destruct o as [[[a b] [x y]]|]; fields; lia. }
  intros [[[[a b] [x y]]|] q'] k (M & K & B); [|apply within_ret; fin].
  apply within_tick. unfold close_line, close_reads. assert (X : eof_reads q' <= e) by fin.
  destruct (eat_cases is_eol q') as [(t & -> & _ & _ & L')| ->].
  - fields. repeat (eapply within_bind; [eapply span_within; [exact R|fin]|]; intros ? ? ?; cbn beta).
    apply within_ret. fin.
  - destruct (at_block_boundary q'); [|apply within_ret; fin].
    fields. repeat (eapply within_bind; [eapply span_within; [exact R|fin]|]; intros ? ? ?; cbn beta).
    apply within_ret. fin.
Qed.
Lemma simple_block_within n e p : roomy n e (1 + boundary_reads n) p ->
  within (simple_block_k p) (fun '(_, q) k => moved p q /\ k <= 110 * V n e * (pos q - pos p + 1)).
Proof.
  intros RR. unfold simple_block_k.
  eapply (with_eof_within n e StopTerminator (boundary_reads n) p _
    (fun p _ x k => k <= 110 * V n e * (x - pos p + 1))); [unfold roomy in *; cbn [match_reads]; lia|].
  intros q R P T. pose proof (roomy_ready _ _ _ _ R) as R'.
  pose proof (U_ge _ _ _ R') as (E1 & E2 & E3). pose proof (V_ge n e) as HV.
  eapply within_bind with (P := fun '(b, r) k => moved q r /\
    k <= 60 * V n e * (pos r - pos q) + 41 * V n e /\ (b = false -> pos r = pos q)).
  { unfold orelse_k at 1. eapply within_bind; [apply list_within, R|]. intros [b r] k (M & K & B). destruct b.
    - apply within_ret. split; [auto|]. split; [nia|discriminate].
    - eapply within_mono.
      + eapply orelse_attempt;
          [apply images_attempt|eapply orelse_attempt; [apply thematic_break_attempt|apply heading_attempt]|].
        eapply ready_moved; eauto.
      + intros [b r'] j (M' & K' & B'). split; [eapply moved_trans; eauto|]. rewrite B in K. destruct b; [|fin; nia].
        split; [nia|discriminate]. }
  intros [b r] k (M & K & B). rewrite <- P. destruct b.
  - apply within_ret. split; [auto|nia].
  - specialize (B eq_refl).
    eapply within_mono; [apply (paragraph_within n e); eapply ready_moved; eauto|]. intros [u r'] j (M' & K').
    split; [eapply moved_trans; eauto|]. rewrite B in *. nia.
Qed.

(** ** The document: every failed collapsible turns one opening token into a literal *)
Definition starts (p : parser) : nat := length (filter is_collapsible_start (tokens p)).
Definition kept (p q : parser) : Prop :=
  length (tokens q) = length (tokens p) /\ eof_stack q = eof_stack p /\ pos p <= pos q <= length (tokens p) /\
  (forall i, i < pos p -> nth_error (tokens q) i = nth_error (tokens p) i) /\ starts q <= starts p.
Lemma moved_kept p q : moved p q -> kept p q.
Proof. unfold moved, kept, starts. intros (-> & -> & M). repeat split; auto; lia. Qed.
Lemma kept_trans p q r : kept p q -> kept q r -> kept p r.
Proof.
  unfold kept. intros (A1 & A2 & A3 & A4 & A5) (B1 & B2 & B3 & B4 & B5). repeat split; try congruence; try lia.
  intros i I. rewrite B4 by lia. auto.
Qed.
Lemma filter_split {A} (f : A -> bool) l i t : nth_error l i = Some t -> f t = true ->
  length (filter f l) = length (filter f (firstn i l)) + S (length (filter f (skipn (S i) l))).
Proof.
  revert i. induction l as [|x l IH]; intros [|i]; cbn; try discriminate.
  - intros [= ->] ->. reflexivity.
  - intros H1 H2. destruct (f x); cbn; rewrite (IH i H1 H2); reflexivity.
Qed.
Lemma flip_starts i t p : nth_error (tokens p) i = Some t -> is_collapsible_start t = true ->
  starts p = S (starts (flip_to_literal i p)).
Proof.
  intros T C. unfold flip_to_literal, starts. rewrite T. cbn [tokens].
  rewrite (filter_split _ _ _ _ T C), filter_app, app_length. cbn [filter]. 
  replace (is_collapsible_start (literal_of t)) with false by reflexivity. lia.
Qed.
Lemma flip_fields i p : length (tokens (flip_to_literal i p)) = length (tokens p) /\
  eof_stack (flip_to_literal i p) = eof_stack p /\ pos (flip_to_literal i p) = pos p /\
  (forall j, j < i -> nth_error (tokens (flip_to_literal i p)) j = nth_error (tokens p) j).
Proof.
  unfold flip_to_literal. destruct (nth_error (tokens p) i) as [t|] eqn:T; [|auto]. cbn [tokens eof_stack pos].
  assert (L : i < length (tokens p)) by (apply nth_error_Some; congruence).
  repeat split.
  - rewrite app_length, firstn_length. cbn [length]. rewrite skipn_length. lia.
  - intros j J. rewrite nth_error_app1 by (rewrite firstn_length; lia).
    rewrite <- (firstn_skipn i (tokens p)) at 2. rewrite nth_error_app1 by (rewrite firstn_length; lia). reflexivity.
Qed.
Definition room (n : nat) (p : parser) : nat := 4 + boundary_reads n + 2 * (n - pos p).
Definition turn (n e : nat) : nat := 400 * W n e.
(** Reads of a document that goes from [p] to [q]. *)
Definition cost (n e : nat) (p q : parser) : nat := turn n e * (pos q - pos p) + turn n e * (n + 1) * (starts p - starts q).
Lemma roomy_kept n e p q : roomy n e (room n p) p -> kept p q -> roomy n e (room n q) q.
Proof. unfold roomy, kept, room, eof_reads. intros (L & P & R) (A1 & A2 & A3 & _). rewrite A1, A2. lia. Qed.
Lemma cost_trans n e p q r : kept p q -> kept q r -> cost n e p q + cost n e q r = cost n e p r.
Proof.
  intros (A1 & A2 & A3 & A4 & A5) (B1 & B2 & B3 & B4 & B5). unfold cost.
  replace (pos r - pos p) with ((pos q - pos p) + (pos r - pos q)) by lia.
  replace (starts p - starts r) with ((starts p - starts q) + (starts q - starts r)) by lia. lia.
Qed.
Lemma eat_end_cases p :
  (exists q, eat_collapsible_end p = (Some (pos p, pos q), q) /\ tokens q = tokens p /\ eof_stack q = eof_stack p /\
     pos p < pos q <= length (tokens p))
  \/ (exists q, eat_collapsible_end p = (None, q) /\ tokens q = tokens p /\ eof_stack q = eof_stack p /\ pos q = pos p).
Proof.
  unfold eat_collapsible_end.
  destruct (eat_seq_cases [is_collapsible_end; is_eol] p) as [(q & -> & T & S & P & L)|(q & -> & T & S & P)]; [discriminate| |].
  - cbn [length] in P. left. exists q. fin.
  - destruct (eat_cases is_collapsible_end q) as [(t & -> & _ & _ & L')| ->].
    + left. exists (set_pos (pos q + 1) q). split; [fields; rewrite P; reflexivity|fin].
    + right. eauto.
Qed.
Lemma eat_seq_head f g p x q : eat_seq [f; g] p = (Some x, q) -> exists t, nth_error (tokens p) (pos p) = Some t /\ f t = true.
Proof.
  unfold eat_seq. cbn [eat_all]. destruct (eat_cases f p) as [(t & -> & T & F & L)| ->]; [|discriminate]. eauto.
Qed.
Definition coll_cost (n e : nat) (p : parser) (b : bool) (q : parser) (k : nat) : Prop :=
  if b then k + turn n e <= cost n e p q /\ pos p < pos q else k <= 2 + cost n e p q /\ pos q = pos p.
Lemma cost_ge n e p q : pos p < pos q -> turn n e <= cost n e p q.
Proof. unfold cost. nia. Qed.
Lemma blocks_within n e f p :
  (forall p, roomy n e (room n p) p ->
     within (collapsible_k f p) (fun '(b, q) k => kept p q /\ coll_cost n e p b q k)) ->
  roomy n e (room n p) p ->
  within (orelse_k code_k (orelse_k (collapsible_k f) (orelse_k embed_k highlight_k)) p) (fun '(b, q) k => kept p q /\
    if b then k + 200 * W n e <= cost n e p q /\ pos p < pos q else k <= 160 * W n e + cost n e p q /\ pos q = pos p).
Proof.
  intros C R. pose proof R as (Ln & Ps & _). pose proof (V_ge n e) as HV. pose proof (W_ge n e) as HW.
  assert (R' : ready n e p) by (eapply roomy_ready, R). pose proof (U_ge _ _ _ R') as (E1 & E2 & E3).
  assert (HT : turn n e = 400 * W n e) by reflexivity.
  unfold orelse_k at 1. eapply within_bind; [apply code_attempt, R'|]. intros [b p1] k (M & K & B).
  destruct b.
  { apply within_ret. split; [apply moved_kept, M|]. pose proof (cost_ge n e _ _ B). split; [lia|exact B]. }
  pose proof (moved_kept _ _ M) as K1. pose proof (roomy_kept _ _ _ _ R K1) as R1.
  unfold orelse_k at 1. eapply within_bind; [apply C, R1|]. intros [b p2] j (K2 & J).
  pose proof (cost_trans n e _ _ _ K1 K2) as CT. pose proof (kept_trans _ _ _ K1 K2) as K12.
  destruct b; destruct J as (J & B2); [apply within_ret; split; [exact K12|]; lia|].
  pose proof (roomy_kept _ _ _ _ R1 K2) as R2.
  unfold orelse_k. eapply within_bind; [apply (embed_attempt n e); eapply roomy_ready, R2|].
  intros [b p3] i (M3 & I & B3). pose proof (moved_kept _ _ M3) as K3.
  pose proof (cost_trans n e _ _ _ K12 K3) as CT3.
  destruct b.
  { apply within_ret. split; [eapply kept_trans; eauto|]. pose proof (cost_ge n e _ _ B3). lia. }
  pose proof (roomy_kept _ _ _ _ R2 K3) as R3. pose proof (kept_trans _ _ _ K12 K3) as K13.
  eapply within_mono; [apply (highlight_within n e)|].
  { unfold roomy, room in *. lia. }
  intros [b p4] h (M4 & H & B4). pose proof (moved_kept _ _ M4) as K4. pose proof (cost_trans n e _ _ _ K13 K4) as CT4.
  split; [eapply kept_trans; eauto|]. destruct b; [pose proof (cost_ge n e _ _ B4)|]; lia.
Qed.
Lemma docs_within n e f :
  (forall p, roomy n e (room n p) p -> within (document_k f p) (fun q k => kept p q /\ k <= e + cost n e p q)) /\
  (forall p, roomy n e (room n p) p -> within (document_loop_k f p) (fun q k => kept p q /\ k <= e + cost n e p q)) /\
  (forall p, roomy n e (room n p) p ->
     within (collapsible_k f p) (fun '(b, q) k => kept p q /\ coll_cost n e p b q k)).
Proof.
  induction f as [|f (I1 & I2 & I3)]; [repeat split; intros; exact I|].
  split; [|split]; intros p R.
  - cbn [document_k].
    assert (R0 : roomy n e (room n (push_op (new_start NDocument no_content) p)) (push_op (new_start NDocument no_content) p))
      by exact R.
    eapply within_bind; [apply I2, R0|]. intros q k (K & C). apply within_ret. rewrite Nat.add_0_r. split; [exact K|exact C].
  - cbn [document_loop_k]. apply within_tick. pose proof (roomy_ready _ _ _ _ R) as R'.
    pose proof (U_ge _ _ _ R') as (E1 & E2 & E3). pose proof (V_ge n e) as HV. pose proof (W_ge n e) as HW.
    pose proof R' as (Ln & Ps & Er). assert (HT : turn n e = 400 * W n e) by reflexivity.
    destruct (at_eof p) eqn:AE.
    { apply within_ret. split; [apply moved_kept; eapply moved_refl, R'|lia]. }
    apply not_eof_lt in AE.
    eapply within_bind with (P := fun q k => kept p q /\ (pos p < pos q -> k + 10 * W n e <= cost n e p q)).
    { apply within_tick. destruct (eat_cases is_terminator p) as [(t & -> & _ & _ & L')| ->].
      - eapply within_bind; [eapply span_within; [exact R'|fields; lia]|]. intros c j J. cbn beta in J. apply within_ret.
        split; [apply moved_kept; fin|]. intros X. pose proof (cost_ge n e _ _ X). lia.
      - eapply within_bind; [apply (blocks_within n e f p I3 R)|]. intros [b q] k (K & C). destruct b; destruct C as (C & B).
        + apply within_ret. split; [auto|lia].
        + pose proof (roomy_kept _ _ _ _ R K) as R1.
          eapply within_bind; [apply (simple_block_within n e)|].
          { unfold roomy, room in *. lia. }
          intros [u q1] j (M & J). apply within_ret. pose proof (moved_kept _ _ M) as K1.
          pose proof (cost_trans n e _ _ _ K K1) as CT. split; [eapply kept_trans; eauto|]. intros X.
          destruct M as (M1 & _ & M). unfold cost in CT at 2. unfold starts in CT at 1 2. rewrite M1, Nat.sub_diag in CT.
          rewrite B in *.
          assert (110 * V n e * (pos q1 - pos p + 1) <= 220 * W n e * (pos q1 - pos p)) by nia.
          assert (170 * W n e <= 170 * W n e * (pos q1 - pos p)) by nia. lia. }
    intros q k (K & C). destruct (pos p <? pos q) eqn:PR; [|exact I]. apply Nat.ltb_lt in PR. specialize (C PR).
    eapply within_mono; [apply I2; eapply roomy_kept; eauto|]. intros r j (K' & C').
    split; [eapply kept_trans; eauto|]. pose proof (cost_trans n e _ _ _ K K'). lia.
  - cbn [collapsible_k]. apply within_tick. pose proof (roomy_ready _ _ _ _ R) as R'.
    pose proof (U_ge _ _ _ R') as (E1 & E2 & E3). pose proof (V_ge n e) as HV. pose proof (W_ge n e) as HW.
    pose proof R' as (Ln & Ps & Er). assert (HT : turn n e = 400 * W n e) by reflexivity.
    pose proof (eat_seq_head is_collapsible_start is_space_or_eol p) as HD.
    destruct (eat_seq_cases [is_collapsible_start; is_space_or_eol] p)
      as [(p1 & Q & T1 & S1 & P1 & L1)|(p1 & Q & T1 & S1 & P1)]; [discriminate| |].
    2:{ rewrite Q. apply within_ret. split; [apply moved_kept; fin|]. unfold coll_cost. lia. }
    destruct (HD _ _ Q) as (t & TT & TC). rewrite Q. clear HD Q. cbn [length] in P1.
    eapply within_bind; [eapply span_within; [exact R'|lia]|]. intros c k1 C1. cbn beta in C1.
    assert (M1 : moved p (push_op (new_start NCollapsible c) p1)) by fin.
    pose proof (moved_kept _ _ M1) as K1.
    eapply within_bind; [apply (modifier_attempt n e); eapply ready_moved; eauto|].
    intros [b p3] k3 (M3 & C3 & _). pose proof (kept_trans _ _ _ K1 (moved_kept _ _ M3)) as K3.
    assert (P3 : pos p + 2 <= pos p3) by fin.
    assert (G3 : starts p3 = starts p) by (unfold starts; fin; congruence).
    assert (FL : forall q, kept p3 q ->
      let q' := flip_to_literal (pos p) (truncate_ops (length (ops p)) (set_pos (pos p) q)) in
      kept p q' /\ pos q' = pos p /\ cost n e p q' = turn n e * (n + 1) * (starts p3 - starts q + 1)).
    { intros q (A1 & A2 & A3 & A4 & A5). cbn zeta. pose proof K3 as (B1 & B2 & B3 & B4 & B5).
      destruct (flip_fields (pos p) (truncate_ops (length (ops p)) (set_pos (pos p) q))) as (F1 & F2 & F3 & F4).
      assert (TQ : nth_error (tokens q) (pos p) = Some t).
      { rewrite A4 by lia. fin. }
      pose proof (flip_starts (pos p) t (truncate_ops (length (ops p)) (set_pos (pos p) q)) TQ TC) as F5.
      change (starts (truncate_ops (length (ops p)) (set_pos (pos p) q))) with (starts q) in F5. fields.
      split; [|split; [exact F3|]].
      - unfold kept. rewrite F1, F2, F3. repeat split; try congruence; try lia.
        intros i Hi. rewrite F4 by lia. rewrite A4 by lia. apply B4. lia.
      - unfold cost. rewrite F3, Nat.sub_diag. rewrite G3 in *.
        replace (starts p - starts (flip_to_literal (pos p) (truncate_ops (length (ops p)) (set_pos (pos p) q))))
          with (starts p - starts q + 1) by lia. lia. }
    apply within_tick. destruct (negb (at_ col0 p3)).
    { apply within_tick, within_ret.
      destruct (FL p3) as (F1 & F2 & F3). { apply moved_kept. eapply moved_refl. eapply ready_moved; [|exact M3]. eapply ready_moved; eauto. }
      cbn zeta in *. split; [exact F1|]. split; [|exact F2]. rewrite F3. nia. }
    pose proof (roomy_kept _ _ _ _ R K3) as R3.
    eapply within_bind with (P := fun '(_, q) k => kept p3 q /\ k <= e + cost n e p3 q).
    { unfold with_eof_k.
      set (p3' := set_stack (StopCollapsibleEnd :: eof_stack p3) p3).
      assert (R3' : roomy n e (room n p3') p3').
      { pose proof K3 as (X1 & X2 & X3 & _). unfold p3', roomy, room, eof_reads in *. fields.
        cbn [stack_reads fold_right match_reads]. change (fold_right _ 0 (eof_stack p3)) with (stack_reads (eof_stack p3)).
        rewrite X2. lia. }
      eapply within_bind.
      { eapply within_bind; [apply I1, R3'|]. intros q k (K & C). apply within_ret.
        instantiate (1 := fun '(_, q) k => kept p3' q /\ k <= e + cost n e p3' q). cbn beta iota. rewrite Nat.add_0_r. auto. }
      intros [u q] k (K & C). apply within_ret. rewrite Nat.add_0_r. unfold kept, cost, starts, p3' in *. fields.
      destruct K as (A1 & -> & A3). cbn [tl]. auto. }
    intros [u p4] k4 (K4 & C4). fields.
    assert (X5 : kept p3 (snd (eat is_eol p4)) /\ cost n e p3 p4 <= cost n e p3 (snd (eat is_eol p4))
                 /\ pos p4 <= pos (snd (eat is_eol p4))).
    { pose proof K4 as (A1 & A2 & A3 & A4 & A5).
      assert (K5 : kept p4 (snd (eat is_eol p4))).
      { apply moved_kept. destruct (eat_cases is_eol p4) as [(t5 & -> & _ & _ & L5)| ->]; fin. }
      split; [eapply kept_trans; eauto|]. pose proof (cost_trans n e _ _ _ K4 K5). split; [lia|apply K5]. }
    destruct X5 as (K5 & C5 & P5). remember (snd (eat is_eol p4)) as p5 eqn:Q5. clear Q5.
    apply within_tick. destruct (eat_end_cases p5) as [(p6 & -> & T6 & S6 & P6)|(p6 & -> & T6 & S6 & P6)].
    + assert (K56 : kept p5 p6) by (apply moved_kept; fin). pose proof (kept_trans _ _ _ K5 K56) as K6.
      pose proof (cost_trans n e _ _ _ K5 K56) as C6.
      pose proof (cost_trans n e _ _ _ K3 K6) as CT. pose proof (kept_trans _ _ _ K3 K6) as K36.
      eapply within_bind; [eapply span_within; [exact R'|destruct K36 as (_ & _ & X & _); destruct K56 as (Y & _ & Z & _); lia]|].
      intros c6 k6 C6'. cbn beta in C6'. apply within_ret. split; [exact K36|].
      assert (2 * turn n e <= cost n e p p3) by (unfold cost; nia).
      split; [|destruct K6 as (_ & _ & X & _); fields; lia].
      change (cost n e p (push_op (new_end NCollapsible c6) p6)) with (cost n e p p6). lia.
    + assert (K56 : kept p5 p6) by (apply moved_kept; pose proof K5 as (Y1 & _ & Y3 & _); fin). pose proof (kept_trans _ _ _ K5 K56) as K6.
      destruct (FL p6 K6) as (F1 & F2 & F3). apply within_tick, within_ret.
      split; [exact F1|]. split; [|exact F2]. rewrite F3.
      assert (C6 : cost n e p3 p6 <= turn n e * (n - 2) + turn n e * (n + 1) * (starts p3 - starts p6)).
      { unfold cost. destruct K6 as (A1 & A2 & A3 & _). destruct K3 as (B1 & B2 & B3 & _).
        assert (pos p6 - pos p3 <= n - 2) by lia. nia. }
      pose proof (cost_trans n e _ _ _ K5 K56) as C7.
      assert (N2 : 2 <= n) by lia.
      assert (A1 : turn n e * (n + 1) * (starts p3 - starts p6 + 1)
                   = turn n e * (n + 1) * (starts p3 - starts p6) + turn n e * (n + 1)) by ring.
      assert (A2 : turn n e * (n + 1) = turn n e * (n - 2) + 3 * turn n e).
      { replace (n + 1) with ((n - 2) + 3) by lia. ring. }
      rewrite A1. clear - C1 C3 C4 C5 C6 C7 A2 HT HV HW E1 E2 E3. lia.
Qed.
