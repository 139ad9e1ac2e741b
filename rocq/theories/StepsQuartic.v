(** A family of inputs for which the counted parser reads about the fourth power of their length. *)
From Verif Require Import Base Lexer LexSpec LexProofs LexFacts Ops Parser Steps StepsProofs StepsBound StepsFinal StreamProofs3
  StepsLow HeightLow.

(** ** [m] openings of collapsibles, then [k] opening brackets: nothing of it is ever closed *)
Definition unclosed (m k : nat) : str := openings m ++ repeat c_lsquare k.
Definition bracket_piece : piece := mk_piece LeftSquareBracket [c_lsquare] false.
Lemma unclosed_scan m k n : 3 * m + k <= n -> scan n (unclosed m k) = open_pieces m ++ repeat bracket_piece k.
Proof.
  revert n. induction m as [|m IH]; intros n L; [apply brackets_scan; lia|].
  destruct n as [|[|[|n]]]; try lia. change (unclosed (S m) k) with (c_lcurly :: c_percent :: c_nl :: unclosed m k). cbn [open_pieces app].
  change (scan (S (S (S n))) (c_lcurly :: c_percent :: c_nl :: unclosed m k))
    with (open_piece :: scan (S (S n)) (c_nl :: unclosed m k)).
  assert (E : scan_one (c_nl :: unclosed m k) = Some (eol_piece, unclosed m k)) by (destruct m, k; reflexivity).
  change (scan (S (S n)) (c_nl :: unclosed m k)) with
    (match scan_one (c_nl :: unclosed m k) with None => [] | Some (p, s') => p :: scan (S n) s' end).
  rewrite E. f_equal. f_equal. change (scan (S n) (unclosed m k) = open_pieces m ++ repeat bracket_piece k).
  apply IH. lia.
Qed.
Lemma unclosed_merge m k : merge (open_pieces m ++ repeat bracket_piece k) = open_pieces m ++ repeat bracket_piece k.
Proof.
  induction m as [|m IH]; [apply brackets_merge|].
  cbn [open_pieces app].
  assert (E : merge (open_piece :: eol_piece :: (open_pieces m ++ repeat bracket_piece k))
    = open_piece :: eol_piece :: merge (open_pieces m ++ repeat bracket_piece k)) by (destruct m, k; reflexivity).
  rewrite E, IH. reflexivity.
Qed.

Definition quietk (k : token_kind) : bool :=
  match k with Literal | Eol | CollapsibleStart | LeftSquareBracket => true | _ => false end.
(** At [i]: [j] openings and then the [k] brackets, the first of them at the start of its line. *)
Fixpoint opn (k j : nat) (ts : list token) (i : nat) : Prop :=
  match j with
  | 0 => i + k = length ts /\ exists b, nth_error ts i = Some b /\ kind b = LeftSquareBracket /\ col0 b = true
  | S j => exists t u, nth_error ts i = Some t /\ nth_error ts (i + 1) = Some u /\ is_collapsible_start t = true /\ kind u = Eol
           /\ opn k j ts (i + 2)
  end.
Lemma opn_shift k j ts i a b : opn k j ts i -> opn k j (a :: b :: ts) (S (S i)).
Proof.
  revert i. induction j as [|j IH]; intros i; cbn [opn].
  - intros (L & H). split; [cbn [length]; lia|exact H].
  - intros (t & u & T & U & H1 & H2 & H3). exists t, u. repeat split; auto. apply (IH (i + 2) H3).
Qed.
Lemma opn_col0 k j ts i : opn k j ts i -> exists t, nth_error ts i = Some t /\ col0 t = true.
Proof.
  destruct j; cbn [opn].
  - intros (_ & b & B & _ & C). eauto.
  - intros (t & u & T & _ & C & _). apply start_kind in C as [_ C]. eauto.
Qed.
Lemma opn_length k j ts i : opn k j ts i -> i + 2 * j + k = length ts.
Proof.
  revert i. induction j as [|j IH]; intros i; cbn [opn]; [intros (L & _); lia|].
  intros (t & u & _ & _ & _ & _ & H). apply IH in H. lia.
Qed.
Definition brackets_from (n : nat) (ts : list token) : Prop := forall i t, n <= i -> nth_error ts i = Some t -> bracket t.
Lemma unclosed_annotate m k o r : let ts := annotate o 0 r (open_pieces m ++ repeat bracket_piece (S k)) in
  opn (S k) m ts 0 /\ length ts = 2 * m + S k /\ Forall (fun t => quietk (kind t) = true) ts /\ brackets_from (2 * m) ts.
Proof.
  revert o r. induction m as [|m IH]; intros o r ts.
  - destruct (brackets_annotate (S k) o 0 r) as [F L]. change (Forall bracket ts) in F. change (length ts = S k) in L.
    repeat split.
    + lia.
    + eexists. repeat split.
    + exact L.
    + eapply Forall_impl; [|exact F]. intros t (K & _). rewrite K. reflexivity.
    + rewrite Forall_forall in F. apply F. eapply nth_error_In; eauto.
    + rewrite Forall_forall in F. apply F. eapply nth_error_In; eauto.
  - set (o' := o + 0 + byte_len [c_lcurly; c_percent] + 0 + byte_len [c_nl]). destruct (IH o' (r + 0 + 1)) as (A & L & F & B).
    unfold ts. cbn [open_pieces app annotate].
    set (us := annotate o' 0 (r + 0 + 1) (open_pieces m ++ repeat bracket_piece (S k))) in *.
    match goal with |- context [opn _ _ (?a :: ?b :: ?l) _] => change l with us; set (x := a); set (y := b) end.
    split; [|split; [|split]].
    + cbn [opn]. exists x, y. repeat split. apply (opn_shift _ _ us 0), A.
    + cbn [length]. lia.
    + repeat constructor; auto.
    + intros [|[|i]] t LE T; [lia|lia|]. apply (B i t); [lia|exact T].
Qed.
Lemma unclosed_lex m k : exists ts, lex (unclosed m (S k)) = Ok ts /\ opn (S k) m ts 0 /\ length ts = 2 * m + S k /\
  Forall (fun t => quietk (kind t) = true) ts /\ brackets_from (2 * m) ts.
Proof.
  exists (spec_tokens (unclosed m (S k))). split; [apply lex_correct|].
  unfold spec_tokens, pieces, raw_pieces.
  rewrite unclosed_scan by (unfold unclosed; rewrite app_length, openings_length, repeat_length; lia).
  rewrite unclosed_merge. apply (unclosed_annotate m k 0 0).
Qed.

(** ** What such tokens are read by *)
Definition quiet (k : nat) (p : parser) : Prop :=
  Forall (fun t => quietk (kind t) = true) (tokens p) /\ k <= length (tokens p) /\
  brackets_from (length (tokens p) - k) (tokens p) /\
  Forall (fun c => c = StopTerminator \/ c = StopCollapsibleEnd) (eof_stack p) /\ pos p <= length (tokens p).
Lemma quiet_peek k p : quiet k p -> pos p < length (tokens p) ->
  exists t, nth_error (tokens p) (pos p) = Some t /\ quietk (kind t) = true.
Proof.
  intros (F & _) L. destruct (nth_error (tokens p) (pos p)) as [t|] eqn:T; [|apply nth_error_None in T; lia].
  exists t. split; auto. rewrite Forall_forall in F. eapply F, nth_error_In, T.
Qed.
Lemma quiet_pos k p i : quiet k p -> i <= length (tokens p) -> quiet k (set_pos i p).
Proof. intros (A & B & C & D & E) L. unfold quiet. fields. auto. Qed.
Definition never (f : token -> bool) : Prop := forall t, quietk (kind t) = true -> f t = false.
Ltac nev := let t := fresh in let K := fresh in intros t K; unfold is_three_dashes, is_tilde, is_underscore, is_star2, is_star, is_backtick, is_backtick3, is_bang,
  is_dash5, is_hash, is_two_bangs, is_left_curly2, is_terminator, is_right_bracket, is_collapsible_end;
  destruct (kind t); (discriminate || reflexivity).
Lemma quiet_eat k f p : quiet k p -> never f -> eat f p = (None, p).
Proof.
  intros Q N. unfold eat. destruct (nth_error (tokens p) (pos p)) as [t|] eqn:T; [|reflexivity].
  rewrite N; [reflexivity|]. destruct Q as (F & _). rewrite Forall_forall in F. eapply F, nth_error_In, T.
Qed.
Lemma quiet_eat_seq k f fs p : quiet k p -> never f -> eat_seq (f :: fs) p = (None, p).
Proof. intros Q N. unfold eat_seq. cbn [eat_all]. rewrite (quiet_eat k f p Q N). destruct p; reflexivity. Qed.
Lemma quiet_not_eof k p : quiet k p -> pos p < length (tokens p) -> at_eof p = false.
Proof.
  intros Q L. destruct (quiet_peek k p Q L) as (t & T & K). unfold at_eof, peek. rewrite T.
  destruct Q as (F & _ & _ & S & _). induction S as [|c cs C S IH]; [reflexivity|]. cbn [existsb]. rewrite IH, orb_false_r.
  destruct C as [-> | ->]; cbn [matches]; [destruct (kind t); try discriminate; reflexivity|].
  apply orb_false_intro; [destruct (kind t); try discriminate; reflexivity|].
  destruct (get (pos p + 1) p) as [u|] eqn:U; cbn [is_some_and]; [|apply andb_false_r].
  assert (K' : quietk (kind u) = true) by (rewrite Forall_forall in F; eapply F, nth_error_In, U).
  destruct (kind u); try discriminate; apply andb_false_r.
Qed.
Lemma past_eof p : pos p = length (tokens p) -> at_eof p = true.
Proof. intros E. unfold at_eof, peek. rewrite E, (proj2 (nth_error_None _ _) (le_n _)). reflexivity. Qed.
Lemma eof_reads_ge p : length (eof_stack p) + 1 <= eof_reads p.
Proof.
  unfold eof_reads. enough (length (eof_stack p) <= stack_reads (eof_stack p)) by lia.
  induction (eof_stack p) as [|c cs IH]; cbn [length stack_reads fold_right]; [lia|]. fold (stack_reads cs).
  destruct c; cbn [match_reads]; lia.
Qed.
Lemma same_quiet k p q : same p q -> quiet k p -> quiet k q.
Proof. unfold same, quiet. intros (-> & -> & ->). auto. Qed.
Lemma same_trans p q r : same p q -> same q r -> same p r.
Proof. unfold same. intros (-> & -> & ->). auto. Qed.

(** Reads of the search that starts at a bracket. *)
Definition search (k : nat) (p : parser) : nat :=
  if length (tokens p) - k <=? pos p then (length (tokens p) - pos p - 1) * length (eof_stack p) else 0.
Definition misses (b : bool) (f : parser -> run (bool * parser)) : Prop :=
  forall k p, quiet k p -> pos p < length (tokens p) ->
  within (f p) (fun '(r, q) n => r = false /\ same p q /\ (if b then search k p else 0) <= n).
Lemma same_search k p q : same p q -> search k q = search k p.
Proof. unfold same, search. intros (-> & -> & ->). reflexivity. Qed.
Lemma delimited_misses n o c : never o -> misses false (delimited_k n o c).
Proof.
  intros N k p Q L. unfold delimited_k. rewrite (quiet_eat k o p Q N). cbn. unfold same. repeat split; lia.
Qed.
Lemma orelse_misses b c d f g : misses b f -> misses c g -> d = orb b c -> (b = false \/ c = false) -> misses d (orelse_k f g).
Proof.
  intros F G -> O k p Q L. unfold orelse_k. eapply within_bind; [apply (F k), L; exact Q|]. intros [r q] n (-> & S & K).
  pose proof S as (S1 & S2 & S3).
  eapply within_mono; [apply (G k); [eapply same_quiet; eauto|rewrite S1, S3; exact L]|]. intros [r x] j (-> & S' & J).
  rewrite (same_search k p q S) in J. split; auto. split; [eapply same_trans; eauto|].
  destruct b, c; cbn [orb]; destruct O; try discriminate; lia.
Qed.
Lemma search_quiet k st m p f : quiet k p -> never m ->
  within (eat_until_loop_k f st m p) (fun '(o, q) n => o = None /\ same (set_pos st p) q /\
    (length (tokens p) - pos p) * length (eof_stack p) <= n).
Proof.
  intros Q M. revert p Q. induction f as [|f IH]; intros p Q; [exact I|]. cbn [eat_until_loop_k]. apply within_tick.
  destruct (nth_error (tokens p) (pos p)) as [t|] eqn:T.
  - assert (L : pos p < length (tokens p)) by (apply nth_error_Some; congruence).
    apply within_tick. rewrite (quiet_not_eof k p Q L).
    destruct (quiet_peek k p Q L) as (t' & T' & K). rewrite T in T'. injection T' as <-. rewrite (M t K).
    eapply within_mono; [apply IH|].
    + apply quiet_pos; [exact Q|lia].
    + intros [o q] n (-> & SM & N). fields. split; auto. split; [exact SM|].
      pose proof (eof_reads_ge p). replace (length (tokens p) - pos p) with (S (length (tokens p) - (pos p + 1))) by lia.
      cbn [Nat.mul]. lia.
  - apply nth_error_None in T. apply within_ret. split; auto. split; [unfold same; auto|].
    replace (length (tokens p) - pos p) with 0 by lia. cbn. lia.
Qed.
Lemma anchor_misses : misses true anchor_k.
Proof.
  intros k p Q L. unfold anchor_k, title_k, delimited_k.
  destruct (quiet_peek k p Q L) as (t & T & K).
  eapply within_bind with (P := fun '(b, q) n => b = false /\ same p q /\ search k p <= n).
  - apply within_tick. unfold eat. fields. rewrite T. destruct (is_left_bracket t) eqn:B.
    + eapply within_bind.
      * unfold eat_until_k. apply (search_quiet k); [|nev].
        apply (quiet_pos k (push_op (new_start NAnchor no_content) p)); [exact Q|fields; lia].
      * intros [o q] n (-> & S & N). fields. apply within_ret. split; auto. split; [unfold same in *; fields; tauto|].
        unfold search. destruct (_ <=? _); [|lia]. replace (length (tokens p) - pos p - 1) with (length (tokens p) - (pos p + 1)) by lia. lia.
    + apply within_ret. split; auto. split; [unfold same; fields; auto|]. unfold search.
      destruct (length (tokens p) - k <=? pos p) eqn:C; [|lia]. apply Nat.leb_le in C.
      destruct Q as (_ & _ & BR & _). destruct (BR _ _ C T) as (B1 & B2). unfold is_left_bracket in B.
      rewrite B1, B2 in B. discriminate.
  - intros [b q] n (-> & S & N). cbn [negb]. apply within_ret. split; auto. split; [|lia]. unfold same in *. fields. tauto.
Qed.
Lemma bold_misses : misses false bold_k.
Proof. intros k p Q L. unfold bold_k. rewrite (quiet_eat k is_star2 p Q) by nev. cbn. unfold same. repeat split. lia. Qed.
Lemma inline_misses : misses true inline_node_k.
Proof.
  unfold inline_node_k.
  eapply orelse_misses; [apply delimited_misses; nev| |reflexivity|auto].
  eapply orelse_misses; [apply delimited_misses; nev| |reflexivity|auto].
  eapply orelse_misses; [apply bold_misses| |reflexivity|auto].
  eapply orelse_misses with (c := false); [apply anchor_misses| |reflexivity|auto].
  eapply orelse_misses; [apply delimited_misses; nev|apply delimited_misses; nev|reflexivity|auto].
Qed.

(** ** One paragraph *)
Definition left_ (k : nat) (p : parser) : nat := Nat.min k (length (tokens p) - pos p).
Definition gain (k : nat) (p : parser) (n : nat) : Prop := left_ k p * (left_ k p - 1) * length (eof_stack p) <= 2 * n.
Definition at_end (p q : parser) : Prop := tokens q = tokens p /\ eof_stack q = eof_stack p /\ pos q = length (tokens p).
Lemma gain_step l e x y : x = y + 1 \/ x = 0 -> l = x * (x - 1) * e -> y * (y - 1) * e + 2 * ((x - 1) * e) >= l.
Proof. intros [-> | ->] ->; [|cbn; lia]. replace (y + 1 - 1) with y by lia. destruct y; [cbn; lia|]. nia. Qed.
Lemma paragraph_loop_gain k f o p : quiet k p ->
  within (paragraph_loop_k f o p) (fun '(_, q) n => at_end p q /\ gain k p n).
Proof.
  revert o p. induction f as [|f IH]; intros o p Q; [exact I|]. cbn [paragraph_loop_k]. apply within_tick.
  pose proof Q as (Q1 & Q2 & Q3 & Q4 & Q5).
  destruct (Nat.eq_dec (pos p) (length (tokens p))) as [E|E].
  - rewrite (past_eof p E). apply within_ret. split; [unfold at_end; auto|]. unfold gain, left_. rewrite E, Nat.sub_diag, Nat.min_0_r.
    cbn. lia.
  - assert (L : pos p < length (tokens p)) by lia. rewrite (quiet_not_eof k p Q L).
    eapply within_bind; [apply (inline_misses k p Q L)|]. intros [b q] n (-> & S & K). pose proof S as (S1 & S2 & S3).
    destruct (next_moves q) as (N1 & N2 & N3); [rewrite S1, S3; exact L|].
    eapply within_mono; [apply IH|].
    + unfold quiet. rewrite N1, N2, N3, S1, S2, S3. split; [auto|]. split; [auto|]. split; [auto|]. split; [auto|]. lia.
    + cbn beta. intros [a r] j ((R1 & R2 & R3) & J). rewrite N1, S1 in R1, R3. rewrite N2, S2 in R2. split; [unfold at_end; auto|].
      unfold gain, left_ in *. rewrite N1, N2, N3, S1, S2, S3 in J. cbn match in K. unfold search in K.
      destruct (length (tokens p) - k <=? pos p) eqn:C.
      * apply Nat.leb_le in C. rewrite Nat.min_r in * by lia.
        pose proof (gain_step _ (length (eof_stack p)) (length (tokens p) - pos p) (length (tokens p) - (pos p + 1)) ltac:(lia) eq_refl).
        lia.
      * apply Nat.leb_gt in C. rewrite Nat.min_l in * by lia. lia.
Qed.
Lemma paragraph_gain k p : quiet k p -> within (paragraph_k p) (fun '(_, q) n => at_end p q /\ gain k p n).
Proof.
  intros Q. unfold paragraph_k.
  eapply within_bind; [apply (paragraph_loop_gain k _ _ (push_op (new_start NParagraph no_content) p)); exact Q|].
  intros [o q] n (E & G). eapply within_bind with (P := fun q' _ => same q q').
  - destruct o; cbn [push_text_k]; [|apply within_ret; unfold same; auto].
    eapply within_bind with (P := fun _ _ => True); [apply within_any; auto|]. intros c j _. apply within_ret. unfold same. fields. auto.
  - intros q' j (S1 & S2 & S3). apply within_ret. unfold at_end, gain, left_ in *. fields. destruct E as (E1 & E2 & E3).
    rewrite S1, S2, S3, E1, E2, E3. repeat split; auto; lia.
Qed.

(** ** One block that is no collapsible *)
Definition plain_at (p : parser) : Prop :=
  exists t, nth_error (tokens p) (pos p) = Some t /\ (kind t = Literal \/ kind t = LeftSquareBracket).
Lemma simple_block_gain k p : quiet k p -> plain_at p -> within (simple_block_k p) (fun '(_, q) n => at_end p q /\ gain k p n).
Proof.
  intros Q (t & T & K). unfold simple_block_k, with_eof_k.
  assert (L : pos p < length (tokens p)) by (apply nth_error_Some; congruence).
  set (q := set_stack (StopTerminator :: eof_stack p) p).
  assert (QQ : quiet k q).
  { destruct Q as (A & B & C & D & E). unfold quiet, q. fields. repeat (split; [solve [auto]|]). auto. }
  eapply within_bind with (P := fun '(_, r) n => at_end q r /\ gain k q n).
  2:{ intros [u r] n ((E1 & E2 & E3) & G). apply within_ret. unfold at_end, gain, left_, q in *. fields. rewrite E2.
      cbn [tl length] in *. repeat split; auto. nia. }
  eapply within_bind with (P := fun '(b, r) n => b = false /\ same q r).
  - unfold orelse_k. eapply within_bind with (P := fun '(b, r) n => b = false /\ r = q).
    { unfold list_k. eapply within_bind with (P := fun '(o, r) k => o = None /\ r = q); [|intros [o r] n (-> & ->); cbn; auto].
      replace (2 * length (tokens q) + 3) with (S (S (2 * length (tokens q) + 1))) by lia. cbn [list_inner_k list_item_k].
      destruct (negb (at_ col0 q)); [cbn; auto|]. cbn [Nat.eqb]. unfold get. rewrite Nat.add_0_r.
      change (nth_error (tokens q) (pos q)) with (nth_error (tokens p) (pos p)). rewrite T.
      unfold list_kind_of. destruct K as [K|K]; rewrite K; cbn; auto. }
    intros [b r] n (-> & ->). eapply within_bind with (P := fun '(b, r) n => b = false /\ same q r).
    { unfold images_k. eapply within_bind with (P := fun '(o, r) n => o = None /\ same q r); [|intros [o r] n' (-> & S); cbn; auto].
      unfold loop_fuel. cbn [images_loop_k]. apply within_tick. unfold peek.
      change (nth_error (tokens q) (pos q)) with (nth_error (tokens p) (pos p)). rewrite T.
      unfold image_k. rewrite (quiet_eat k is_bang q QQ) by nev. cbn. rewrite (quiet_not_eof k q QQ L). cbn. unfold same. auto. }
    intros [b r] j (-> & S). pose proof (same_quiet _ _ _ S QQ) as Q2.
    unfold thematic_break_k. rewrite (quiet_eat k is_dash5 r Q2) by nev. unfold heading_k.
    cbn. rewrite (quiet_eat_seq k is_hash _ r Q2) by nev. cbn. auto.
  - intros [b r] n (-> & S). eapply within_mono; [apply (paragraph_gain k); eapply same_quiet; eauto|].
    intros [u r'] j J. unfold at_end, gain, left_ in *. destruct S as (S1 & S2 & S3). rewrite S1, S2, S3 in J. split; [tauto|lia].
Qed.

(** ** The openings *)
(** [e + (e + 1) + ... + (e + j)] *)
Fixpoint levels_sum (e j : nat) : nat := match j with 0 => e | S j => e + levels_sum (S e) j end.
Lemma levels_sum_eq e j : 2 * levels_sum e j = (j + 1) * (2 * e + j).
Proof. revert e. induction j as [|j IH]; intros e; cbn [levels_sum]; [lia|]. specialize (IH (S e)). nia. Qed.
Lemma flipped_nth (l : list token) i x j : i < length l ->
  nth_error (firstn i l ++ x :: skipn (S i) l) j = if j =? i then Some x else nth_error l j.
Proof.
  revert i j. induction l as [|a l IH]; intros i j L; cbn [length] in L; [lia|].
  destruct i as [|i]; [destruct j; reflexivity|]. destruct j as [|j]; [reflexivity|]. cbn [firstn app nth_error Nat.eqb skipn].
  apply IH. lia.
Qed.
Lemma flipped_quiet k p i t : quiet k p -> nth_error (tokens p) i = Some t -> i < length (tokens p) - k ->
  let q := flip_to_literal i p in
  quiet k q /\ length (tokens q) = length (tokens p) /\ eof_stack q = eof_stack p /\ pos q = pos p /\
  nth_error (tokens q) i = Some (literal_of t).
Proof.
  intros Q T L q. assert (LT : i < length (tokens p)) by lia. unfold q, flip_to_literal. rewrite T. fields.
  set (us := firstn i (tokens p) ++ literal_of t :: skipn (S i) (tokens p)).
  assert (N : forall j, nth_error us j = if j =? i then Some (literal_of t) else nth_error (tokens p) j) by (intros; apply flipped_nth, LT).
  assert (LU : length us = length (tokens p)).
  { unfold us. rewrite app_length. cbn [length]. rewrite firstn_length, skipn_length. lia. }
  destruct Q as (F & K & B & S & P). unfold quiet. fields. rewrite LU.
  split; [|rewrite N, Nat.eqb_refl; auto]. split; [|split; [auto|split; [|auto]]].
  - apply Forall_forall. intros u U. apply In_nth_error in U as [j J]. rewrite N in J. destruct (j =? i).
    + injection J as <-. reflexivity.
    + rewrite Forall_forall in F. eapply F, nth_error_In, J.
  - intros j u LE J. rewrite N in J. destruct (j =? i) eqn:E; [apply Nat.eqb_eq in E; lia|]. apply (B _ _ LE J).
Qed.
(** Nothing of the stack but the conditions of the openings that are not closed yet. *)
Definition inside (k e j : nat) (p : parser) : Prop :=
  quiet k p /\ 0 < k /\ opn k j (tokens p) (pos p) /\ length (eof_stack p) = e.
Definition after (p q : parser) : Prop :=
  length (tokens q) = length (tokens p) /\ eof_stack q = eof_stack p.
Lemma docs_gain k f :
  (forall e j p, inside k e j p -> within (document_k f p) (fun q n =>
     quiet k q /\ after p q /\ pos q = length (tokens p) /\ k * (k - 1) * levels_sum e j <= 2 * n)) /\
  (forall e j p, inside k e j p -> within (document_loop_k f p) (fun q n =>
     quiet k q /\ after p q /\ pos q = length (tokens p) /\ k * (k - 1) * levels_sum e j <= 2 * n)) /\
  (forall e j p, inside k e j p -> within (collapsible_k f p) (fun '(b, q) n => b = false /\
     quiet k q /\ after p q /\ pos q = pos p /\ plain_at q /\
     match j with 0 => 0 | S j => k * (k - 1) * levels_sum (S e) j end <= 2 * n)).
Proof.
  induction f as [|f (I1 & I2 & I3)]; [repeat split; intros; exact I|].
  split; [|split]; intros e j p A.
  - cbn [document_k]. eapply within_bind; [apply (I2 e j (push_op (new_start NDocument no_content) p)), A|].
    intros q n H. apply within_ret. rewrite Nat.add_0_r. exact H.
  - cbn [document_loop_k]. apply within_tick. pose proof A as (Q & K0 & O & SE). pose proof (opn_length _ _ _ _ O) as OL.
    assert (L : pos p < length (tokens p)) by lia.
    rewrite (quiet_not_eof k p Q L). rewrite (quiet_eat k is_terminator p Q) by nev.
    eapply within_bind with (P := fun q n => quiet k q /\ after p q /\ pos q = length (tokens p) /\ k * (k - 1) * levels_sum e j <= 2 * n).
    + apply within_tick.
      eapply within_bind with (P := fun '(b, q) n => b = false /\ quiet k q /\ after p q /\ pos q = pos p /\ plain_at q /\
        match j with 0 => 0 | S j => k * (k - 1) * levels_sum (S e) j end <= 2 * n).
      * unfold orelse_k at 1. eapply within_bind with (P := fun '(b, q) n => b = false /\ q = p).
        { unfold code_k, eat_fence. rewrite (quiet_eat_seq k is_backtick3 _ p Q) by nev.
          rewrite (quiet_eat k is_backtick3 p Q) by nev. cbn. auto. }
        intros [b q] n0 (-> & ->). unfold orelse_k at 1. eapply within_bind; [apply (I3 e j p A)|].
        intros [b q] n1 (-> & QQ & AF & PQ & PL & G).
        unfold orelse_k, embed_k. rewrite (quiet_eat k is_left_curly2 q QQ) by nev. unfold highlight_k.
        cbn. rewrite (quiet_eat_seq k is_two_bangs _ q QQ) by nev. cbn. repeat (split; [solve [auto]|]). lia.
      * intros [b q] n (-> & QQ & AF & PQ & PL & G).
        eapply within_bind; [apply (simple_block_gain k q QQ PL)|]. intros [u r] i ((E1 & E2 & E3) & GG). apply within_ret.
        destruct AF as (AF1 & AF2).
        split; [|split; [|split]].
        -- destruct QQ as (X1 & X2 & X3 & X4 & X5). unfold quiet. rewrite E1, E2, E3. auto.
        -- unfold after. rewrite E1, E2. auto.
        -- congruence.
        -- unfold gain, left_ in GG. rewrite AF2, AF1, PQ, SE, Nat.min_l in GG by lia.
           destruct j as [|j]; cbn [levels_sum]; [lia|]. rewrite Nat.mul_add_distr_l. lia.
    + intros q n (QQ & (AF1 & AF2) & PQ & G). rewrite PQ. apply Nat.ltb_lt in L. rewrite L.
      destruct f as [|f']; [exact I|]. cbn [document_loop_k]. apply within_tick. rewrite (past_eof q) by congruence.
      apply within_ret. unfold after. repeat (split; [solve [auto]|]). lia.
  - cbn [collapsible_k]. apply within_tick. pose proof A as (Q & K0 & O & SE). pose proof (opn_length _ _ _ _ O) as OL.
    destruct j as [|j]; cbn [opn] in O.
    { destruct O as (_ & b & B & K & C).
      assert (E : eat_seq [is_collapsible_start; is_space_or_eol] p = (None, p)).
      { unfold eat_seq. cbn [eat_all]. unfold eat. rewrite B. unfold is_collapsible_start. rewrite K. destruct p; reflexivity. }
      rewrite E. apply within_ret. repeat (split; [solve [auto|unfold after; auto|exists b; auto]|]). lia. }
    destruct O as (t & u & T & U & S & K & O).
    assert (E : eat_seq [is_collapsible_start; is_space_or_eol] p = (Some (pos p, pos p + 2), set_pos (pos p + 2) p)).
    { unfold eat_seq. cbn [eat_all]. unfold eat at 1. rewrite T, S. unfold eat. fields. rewrite U.
      unfold is_space_or_eol. rewrite K. cbn [kind_eqb orb]. fields. destruct p. unfold set_pos. fields.
      replace (pos + 1 + 1) with (pos + 2) by lia. reflexivity. }
    rewrite E. apply within_bind with (P := fun _ _ => True); [apply within_any; auto|]. intros c n0 _.
    set (q := push_op _ _). destruct (opn_col0 _ _ _ _ O) as (t' & T' & C').
    assert (TQ : nth_error (tokens q) (pos q) = Some t') by exact T'.
    eapply within_bind with (P := fun '(_, r) _ => r = q).
    { unfold modifier_k. apply within_tick. unfold peek. rewrite TQ. cbn [is_some_and]. rewrite C'. reflexivity. }
    intros [b r] n1 ->. apply within_tick.
    assert (AT : at_ col0 q = true) by (unfold at_, peek; rewrite TQ; exact C').
    rewrite AT. cbn [negb].
    assert (QQ : quiet k q) by (apply (quiet_pos k p (pos p + 2) Q); lia).
    eapply within_bind with (P := fun '(_, r) n => quiet k r /\ after p r /\ pos r = length (tokens p) /\
      k * (k - 1) * levels_sum (Datatypes.S e) j <= 2 * n).
    + unfold with_eof_k.
      eapply within_bind with (P := fun '(_, r) n => quiet k r /\ length (tokens r) = length (tokens p) /\
        eof_stack r = StopCollapsibleEnd :: eof_stack p /\ pos r = length (tokens p) /\
        k * (k - 1) * levels_sum (Datatypes.S e) j <= 2 * n).
      * eapply within_bind; [apply (I1 (Datatypes.S e) j)|].
        -- unfold inside. split; [|split; [exact K0|split; [exact O|cbn; rewrite SE; reflexivity]]].
           destruct QQ as (X1 & X2 & X3 & X4 & X5). unfold quiet. fields. repeat (split; [solve [auto]|]). auto.
        -- intros r n (R1 & (R2 & R3) & R4 & R5). apply within_ret. fields. repeat (split; [solve [auto]|]). lia.
      * intros [v r] n (R1 & R2 & R3 & R4 & R5). apply within_ret. unfold after. fields. rewrite R3. cbn [tl].
        split; [|repeat (split; [solve [auto]|]); lia].
        destruct R1 as (X1 & X2 & X3 & X4 & X5). unfold quiet. fields. rewrite R3 in X4. inversion X4; subst. auto 6.
    + intros [v r] n (R1 & (R2 & R3) & R4 & R5).
      assert (EE : eat is_eol r = (None, r)).
      { unfold eat. rewrite R4, <- R2, (proj2 (nth_error_None _ _) (le_n _)). reflexivity. }
      rewrite EE. fields. apply within_tick. unfold eat_collapsible_end.
      rewrite (quiet_eat_seq k is_collapsible_end _ r R1) by nev. rewrite (quiet_eat k is_collapsible_end r R1) by nev.
      apply within_tick, within_ret. set (x := truncate_ops _ _).
      destruct (nth_error (tokens x) (pos p)) as [w|] eqn:W.
      2:{ apply nth_error_None in W. unfold x in W. fields. lia. }
      assert (QX : quiet k x) by (apply (quiet_pos k r (pos p) R1); lia).
      destruct (flipped_quiet k x (pos p) w QX W) as (F1 & F2 & F3 & F4 & F5); [unfold x; fields; lia|].
      split; [auto|]. split; [exact F1|]. split; [unfold after; rewrite F2, F3; unfold x; fields; auto|].
      split; [rewrite F4; reflexivity|]. split; [|lia].
      exists (literal_of w). rewrite F4. unfold x at 2. fields. split; [exact F5|auto].
Qed.
(** One or more openings before [k] brackets: the product of two squares. *)
Lemma reads_unclosed m k : exists ops n, parse_k (unclosed m k) = Ok (ops, n) /\ k * (k - 1) * (m * (m + 1)) <= 4 * n.
Proof.
  set (s := unclosed m k). destruct (parse_total s) as [ops P].
  destruct (proj1 (parse_k_ok s ops) P) as [n N]. exists ops, n. split; [exact N|].
  destruct k as [|k]; [cbn; lia|].
  assert (H : within (parse_k s) (fun _ n => S k * (S k - 1) * (m * (m + 1)) <= 4 * n)); [|rewrite N in H; exact H].
  unfold parse_k, parser_from. destruct (unclosed_lex m k) as (ts & LX & O & L & F & B). fold s in LX. rewrite LX. cbn [bind].
  set (p0 := mk_parser s ts 0 [] []).
  assert (Q : quiet (S k) p0).
  { unfold quiet, p0. fields. split; [exact F|]. split; [lia|]. split; [|split; [constructor|lia]].
    rewrite L. replace (2 * m + S k - S k) with (2 * m) by lia. exact B. }
  eapply within_bind with (P := fun p _ => p = p0); [cbn; auto|]. intros p k0 ->.
  eapply within_bind with (P := fun '(_, p) _ => p = p0).
  { unfold metadata_k, delimited_k. rewrite (quiet_eat (S k) is_three_dashes p0 Q) by nev. cbn. reflexivity. }
  intros [b p] k1 ->.
  eapply within_bind; [apply (proj1 (docs_gain (S k) _) 0 m p0); repeat (split; [solve [auto|lia]|]); reflexivity|].
  intros q j (_ & _ & _ & J). apply within_ret. pose proof (levels_sum_eq 0 m) as LS.
  assert (E : 2 * levels_sum 0 m = m * (m + 1)) by lia. rewrite <- E. set (a := S k * (S k - 1)) in *. nia.
Qed.
Lemma unclosed_length m k : length (unclosed m k) = 3 * m + k.
Proof. unfold unclosed. rewrite app_length, openings_length, repeat_length. reflexivity. Qed.
Lemma reads_not_cubic c : exists s ops n, parse_k s = Ok (ops, n) /\ c * (length s + 1) ^ 3 < n.
Proof.
  set (m := 512 * c + 4). destruct (reads_unclosed m (m + 1)) as (ops & n & N & G). exists (unclosed m (m + 1)), ops, n.
  split; [exact N|]. rewrite unclosed_length. replace (3 * m + (m + 1) + 1) with (4 * m + 2) by lia.
  replace (m + 1 - 1) with m in G by lia.
  assert (X : (4 * m + 2) ^ 3 <= 125 * (m * m * m)).
  { apply Nat.le_trans with ((5 * m) ^ 3); [apply Nat.pow_le_mono_l; lia|]. cbn [Nat.pow]. nia. }
  assert (Y : c * (4 * m + 2) ^ 3 <= c * (125 * (m * m * m))) by (apply Nat.mul_le_mono_l, X).
  assert (Z : 4 * (c * (125 * (m * m * m))) < m * (m * m * m)).
  { replace (4 * (c * (125 * (m * m * m)))) with (500 * c * (m * m * m)) by ring. apply Nat.mul_lt_mono_pos_r; [|lia].
    assert (0 < m) by lia. nia. }
  assert (V : m * (m * m * m) <= (m + 1) * m * (m * (m + 1))) by nia.
  lia.
Qed.
Lemma openings_concat m : openings m = concat (repeat [c_lcurly; c_percent; c_nl] m).
Proof. induction m as [|m IH]; [reflexivity|]. cbn [openings repeat concat app]. rewrite IH. reflexivity. Qed.
Lemma reads_unclosed_concat m k : exists ops n,
  parse_k (concat (repeat [c_lcurly; c_percent; c_nl] m) ++ repeat c_lsquare k) = Ok (ops, n)
  /\ k * (k - 1) * (m * (m + 1)) <= 4 * n.
Proof. rewrite <- openings_concat. apply reads_unclosed. Qed.
