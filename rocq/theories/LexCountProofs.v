(** The reads of the lexer are linear in its input (property C76). *)
From Coq Require Import Lia.
From Verif Require Import Base Lexer LexProofs LexFacts LexCount.

(** ** The same lexer *)

Lemma next_is_fst : forall c lx, fst (next_is_k c lx) = next_is c lx.
Proof. intros c lx. unfold next_is_k, next_is. destruct (iter lx) as [|[o d] it]; [reflexivity|]. destruct (char_eqb d c); reflexivity. Qed.
Lemma take_loop_fst : forall c it p, fst (take_loop_k c it p) = take_loop c it p.
Proof.
  induction it as [|[o d] it IH]; intros p; [reflexivity|]. cbn [take_loop_k take_loop]. destruct (char_eqb d c); [|reflexivity].
  rewrite <- IH. destruct (take_loop_k c it (bump false o d p)) as [r k]. reflexivity.
Qed.
Lemma take_while_fst : forall c k p lx, fst (take_while_k c k p lx) = take_while c k p lx.
Proof.
  intros c k p lx. unfold take_while_k, take_while. rewrite <- take_loop_fst. destruct (take_loop_k c (iter lx) (l_position lx)) as [[it q] n]. reflexivity.
Qed.
Lemma escape_fst : forall p lx, fst (parse_escape_k p lx) = parse_escape p lx.
Proof. intros p lx. unfold parse_escape_k, parse_escape. destruct (next_char true _) as [[[q c]|] lx2]; reflexivity. Qed.
Lemma rest_fst : forall p c lx, fst (parse_rest_k p c lx) = parse_rest p c lx.
Proof.
  intros p c lx. unfold parse_rest_k, parse_rest.
  repeat match goal with |- fst (if ?b then _ else _) = _ => destruct b; [first [apply escape_fst|apply take_while_fst|reflexivity]|] end. reflexivity.
Qed.
Lemma char_fst : forall p c lx, fst (parse_char_k p c lx) = parse_char p c lx.
Proof.
  intros p c lx. unfold parse_char_k, parse_char.
  destruct (char_eqb c c_nl); [reflexivity|]. destruct (char_eqb c c_cr); [|destruct (char_eqb c c_lcurly); [|destruct (char_eqb c c_percent); [|apply rest_fst]]];
    rewrite <- next_is_fst; (destruct (next_is_k _ lx) as [[[] lx1] k]; cbn [fst after_k]; [reflexivity|apply rest_fst]).
Qed.
Definition drop_k {A} (m : outcome (A * nat)) : outcome A := let! (a, _) := m in Ok a.
Lemma advance_drop : forall f lx, drop_k (advance_loop_k f lx) = advance_loop f lx.
Proof.
  induction f as [|f IH]; intros lx; [reflexivity|]. cbn [advance_loop_k advance_loop]. destruct (queue lx); [|reflexivity]. destruct (next_char false lx) as [[[p c]|] lx1]; [|reflexivity].
  rewrite <- char_fst. destruct (parse_char_k p c lx1) as [lx2 k]. cbn [fst]. rewrite <- IH. unfold drop_k. destruct (advance_loop_k f lx2) as [[lx3 k3]| |]; reflexivity.
Qed.
Lemma next_drop : forall lx, drop_k (lexer_next_k lx) = lexer_next lx.
Proof.
  intros lx. unfold lexer_next_k, lexer_next, advance_k, advance. rewrite <- advance_drop. unfold drop_k. destruct (advance_loop_k _ lx) as [[lx1 k]| |]; cbn; [destruct (queue lx1); reflexivity|reflexivity|reflexivity].
Qed.
Lemma collect_drop : forall f lx, drop_k (collect_loop_k f lx) = collect_loop f lx.
Proof.
  induction f as [|f IH]; intros lx; [reflexivity|]. cbn [collect_loop_k collect_loop]. rewrite <- next_drop. unfold drop_k at 2. destruct (lexer_next_k lx) as [[[o lx1] k]| |]; try reflexivity. cbn [bind].
  destruct o as [t|]; [|reflexivity]. rewrite <- IH. unfold drop_k. destruct (collect_loop_k f lx1) as [[ts k1]| |]; reflexivity.
Qed.
Theorem lex_drop : forall s, drop_k (lex_k s) = lex s.
Proof. intros s. apply collect_drop. Qed.

(** ** What is left to read *)

Lemma replace_iter : forall t lx, iter (replace_token t lx) = iter lx.
Proof. reflexivity. Qed.
Lemma literal_iter : forall e lx, iter (emit_literal_if_started e lx) = iter lx.
Proof. intros e lx. unfold emit_literal_if_started. destruct (literal_start lx); reflexivity. Qed.
Lemma emit_iter : forall t lx, iter (emit t lx) = iter lx.
Proof. intros t lx. unfold emit. rewrite replace_iter. apply literal_iter. Qed.
Lemma eol_iter : forall p n lx, iter (eol p n lx) = iter lx.
Proof.
  intros p n lx. unfold eol. rewrite <- (literal_iter (byte_index p) lx). destruct (l_token _) as [t|]; [destruct (kind_eqb (kind t) Eol)|]; reflexivity.
Qed.
Lemma take_loop_cost : forall c it p, snd (take_loop_k c it p) + 2 * length (fst (fst (take_loop_k c it p))) = 2 * length it + 1.
Proof.
  induction it as [|[o d] it IH]; intros p; [reflexivity|]. cbn [take_loop_k]. destruct (char_eqb d c); [|cbn [fst snd length]; lia]. specialize (IH (bump false o d p)).
  destruct (take_loop_k c it (bump false o d p)) as [[it' q] k]. cbn [fst snd length] in *. lia.
Qed.
Lemma take_loop_le : forall c it p, length (fst (fst (take_loop_k c it p))) <= length it.
Proof.
  induction it as [|[o d] it IH]; intros p; [apply le_n|]. cbn [take_loop_k]. destruct (char_eqb d c); [|apply le_n]. specialize (IH (bump false o d p)).
  destruct (take_loop_k c it (bump false o d p)) as [[it' q] k]. cbn [fst snd length] in *. lia.
Qed.
(** Three reads for each character taken, and [e] more. *)
Definition pays (e : nat) (lx : lexer) (r : lexer * nat) : Prop := snd r + 3 * length (iter (fst r)) <= 3 * length (iter lx) + e.
Lemma take_while_pays : forall c k p lx, pays 1 lx (take_while_k c k p lx).
Proof.
  intros c k p lx. unfold pays, take_while_k. pose proof (take_loop_cost c (iter lx) (l_position lx)) as H. pose proof (take_loop_le c (iter lx) (l_position lx)) as L.
  destruct (take_loop_k c (iter lx) (l_position lx)) as [[it q] n]. cbn [fst snd] in *. rewrite emit_iter. cbn [set_iter iter]. lia.
Qed.
Lemma escape_pays : forall p lx, pays 1 lx (parse_escape_k p lx).
Proof.
  intros p lx. unfold pays, parse_escape_k. rewrite <- (literal_iter (byte_index p) lx). set (l := emit_literal_if_started _ lx). unfold next_char. destruct (iter l) as [|[o c] it] eqn:E; cbn [fst snd set_iter set_escaped get_or_insert_literal iter length]; rewrite ?E; cbn [length]; lia.
Qed.
Lemma rest_pays : forall p c lx, pays 1 lx (parse_rest_k p c lx).
Proof.
  intros p c lx. unfold parse_rest_k.
  repeat match goal with |- pays _ _ (if ?b then _ else _) => destruct b; [first [apply escape_pays|apply take_while_pays|unfold pays; cbn [fst snd]; rewrite emit_iter; lia]|] end.
  unfold pays. cbn [fst snd get_or_insert_literal iter]. lia.
Qed.
Lemma next_is_pays : forall c lx b lx1 k, next_is_k c lx = (b, lx1, k) -> if b then k = 2 /\ length (iter lx) = S (length (iter lx1)) else k = 1 /\ lx1 = lx.
Proof.
  intros c lx b lx1 k H. unfold next_is_k in H. destruct (iter lx) as [|[o d] it] eqn:E; [injection H as <- <- <-; auto|]. destruct (char_eqb d c); injection H as <- <- <-; [|auto].
  split; [reflexivity|]. unfold next_char. rewrite E. reflexivity.
Qed.
Lemma char_pays : forall p c lx, pays 2 lx (parse_char_k p c lx).
Proof.
  intros p c lx. unfold parse_char_k. destruct (char_eqb c c_nl); [unfold pays; cbn [fst snd]; rewrite eol_iter; lia|].
  assert (R : forall lx1, lx1 = lx -> pays 2 lx (after_k 1 (parse_rest_k p c lx1))).
  { intros lx1 ->. pose proof (rest_pays p c lx) as X. unfold pays, after_k in *. cbn [fst snd]. lia. }
  assert (R0 : pays 2 lx (parse_rest_k p c lx)) by (pose proof (rest_pays p c lx) as X; unfold pays in *; lia).
  destruct (char_eqb c c_cr); [|destruct (char_eqb c c_lcurly); [|destruct (char_eqb c c_percent); [|exact R0]]].
  all: destruct (next_is_k _ lx) as [[[] lx1] k] eqn:E; apply next_is_pays in E; destruct E as [-> E]; [|exact (R lx1 E)].
  all: unfold pays; cbn [fst snd]; rewrite ?eol_iter, ?emit_iter, E; lia.
Qed.

(** ** Calls of [next] *)

(** Nothing is left, neither characters nor a token in the making. *)
Definition spent (lx : lexer) : Prop := iter lx = [] /\ l_token lx = None /\ literal_start lx = None.
Lemma finish_spent : forall lx, iter lx = [] -> spent (finish lx).
Proof.
  intros lx E. unfold finish, emit_literal_if_started, spent. cbn [set_iter literal_start]. destruct (literal_start lx) eqn:L; cbn [l_token set_iter replace_token iter literal_start].
  - auto.
  - destruct (l_token lx) eqn:T; cbn [iter l_token literal_start set_iter]; auto.
Qed.
Lemma finish_again : forall lx, spent lx -> queue (finish lx) = queue lx.
Proof. intros lx (E1 & E2 & E3). unfold finish, emit_literal_if_started. cbn [set_iter literal_start]. rewrite E3. cbn [l_token set_iter]. rewrite E2. reflexivity. Qed.

Lemma next_char_len : forall b lx p c lx1, next_char b lx = (Some (p, c), lx1) -> length (iter lx) = S (length (iter lx1)).
Proof. intros b lx p c lx1 H. unfold next_char in H. destruct (iter lx) as [|[o d] it]; [discriminate|]. injection H as _ _ <-. reflexivity. Qed.
Lemma next_char_none : forall b lx lx1, next_char b lx = (None, lx1) -> iter lx = [] /\ lx1 = lx.
Proof. intros b lx lx1 H. unfold next_char in H. destruct (iter lx) as [|[o d] it] eqn:E; [injection H as <-; auto|discriminate]. Qed.
Lemma advance_pays : forall f lx lx1 k, advance_loop_k f lx = Ok (lx1, k) ->
  (queue lx1 <> [] /\ k + 3 * length (iter lx1) <= 3 * length (iter lx)) \/ (spent lx1 /\ k <= 3 * length (iter lx) + 1).
Proof.
  induction f as [|f IH]; intros lx lx1 k H; [discriminate|]. cbn [advance_loop_k] in H. destruct (queue lx) as [|t q] eqn:Q; [|injection H as <- <-; left; rewrite Q; split; [discriminate|lia]].
  destruct (next_char false lx) as [[[p c]|] lx0] eqn:N.
  - apply next_char_len in N. pose proof (char_pays p c lx0) as P. destruct (parse_char_k p c lx0) as [lx2 k2]. unfold pays in P. cbn [fst snd] in P.
    destruct (advance_loop_k f lx2) as [[lx3 k3]| |] eqn:A; try discriminate. cbn [bind] in H. injection H as <- <-. apply IH in A. destruct A as [[A1 A2]|[A1 A2]]; [left|right]; (split; [exact A1|lia]).
  - apply next_char_none in N. destruct N as [N ->]. injection H as <- <-. right. split; [apply finish_spent; exact N|rewrite N; cbn; lia].
Qed.
Lemma advance_spent : forall f lx lx1 k, spent lx -> advance_loop_k f lx = Ok (lx1, k) -> (queue lx <> [] /\ lx1 = lx /\ k = 0) \/ (queue lx1 = [] /\ k = 1).
Proof.
  intros [|f] lx lx1 k S H; [discriminate|]. cbn [advance_loop_k] in H. destruct (queue lx) as [|t q] eqn:Q; [|injection H as <- <-; left; split; [discriminate|auto]].
  unfold next_char in H. pose proof S as S0. destruct S as (E & _). rewrite E in H. injection H as <- <-. right. rewrite finish_again by exact S0. auto.
Qed.
Lemma spent_dec : forall lx, {spent lx} + {~ spent lx}.
Proof.
  intros lx. unfold spent. destruct (iter lx); [|right; intros (? & _); discriminate]. destruct (l_token lx); [right; intros (_ & ? & _); discriminate|].
  destruct (literal_start lx); [right; intros (_ & _ & ?); discriminate|left; auto].
Qed.
Lemma collect_pays : forall f lx ts k, collect_loop_k f lx = Ok (ts, k) -> (spent lx -> k <= 1) /\ k <= 3 * length (iter lx) + 2.
Proof.
  induction f as [|f IH]; intros lx ts k H; [discriminate|]. cbn [collect_loop_k] in H. unfold lexer_next_k, advance_k in H.
  destruct (advance_loop_k (S (length (iter lx))) lx) as [[lx1 k1]| |] eqn:A; try discriminate. cbn [bind] in H.
  pose proof (advance_pays _ _ _ _ A) as P. pose proof (fun S => advance_spent _ _ _ _ S A) as Q. clear A. destruct (queue lx1) as [|t q] eqn:E.
  - injection H as <- <-. split; [intros S; destruct (Q S) as [(N & -> & _)|[_ ->]]; [congruence|apply le_n]|]. destruct P as [[P _]|[_ P]]; [congruence|lia].
  - set (lx2 := mk_lexer _ _ _ _ _ _ _) in H. cbn [bind] in H. destruct (collect_loop_k f lx2) as [[ts2 k2]| |] eqn:C; try discriminate. cbn [bind] in H. injection H as <- <-. apply IH in C. destruct C as [C1 C2].
    change (iter lx2) with (iter lx1) in C2. assert (S2 : spent lx1 -> k2 <= 1) by (intros S; apply C1; exact S). split.
    + intros S. destruct (Q S) as [(_ & -> & ->)|[Q0 _]]; [exact (S2 S)|congruence].
    + destruct P as [[_ P]|[S P]]; [lia|]. specialize (S2 S). lia.
Qed.
Lemma indices_length : forall s o, length (char_indices_from o s) = length s.
Proof. induction s as [|c s IH]; intros o; [reflexivity|]. cbn. rewrite IH. reflexivity. Qed.
Theorem lex_reads : forall s, exists ts k, lex_k s = Ok (ts, k) /\ lex s = Ok ts /\ k <= 3 * length s + 2.
Proof.
  intros s. destruct (iterator_protocol s) as (ts & L & _). pose proof (lex_drop s) as D. rewrite L in D. unfold drop_k in D. destruct (lex_k s) as [[ts' k]| |] eqn:E; try discriminate D. cbn [bind] in D. injection D as ->.
  exists ts, k. split; [reflexivity|]. split; [exact L|]. unfold lex_k in E. apply collect_pays in E. destruct E as [_ E]. cbn [lexer_new iter] in E. rewrite indices_length in E. exact E.
Qed.

(** Every character is read, and the end is seen. *)
Definition costs (lx : lexer) (r : lexer * nat) : Prop := length (iter lx) <= snd r + length (iter (fst r)).
Lemma take_while_costs : forall c k p lx, costs lx (take_while_k c k p lx).
Proof.
  intros c k p lx. unfold costs, take_while_k. pose proof (take_loop_cost c (iter lx) (l_position lx)) as H. pose proof (take_loop_le c (iter lx) (l_position lx)) as L.
  destruct (take_loop_k c (iter lx) (l_position lx)) as [[it q] n]. cbn [fst snd] in *. rewrite emit_iter. cbn [set_iter iter]. lia.
Qed.
Lemma escape_costs : forall p lx, costs lx (parse_escape_k p lx).
Proof.
  intros p lx. unfold costs, parse_escape_k. rewrite <- (literal_iter (byte_index p) lx). set (l := emit_literal_if_started _ lx). unfold next_char. destruct (iter l) as [|[o c] it] eqn:E; cbn [fst snd set_iter set_escaped get_or_insert_literal iter length]; rewrite ?E; cbn [length]; lia.
Qed.
Lemma rest_costs : forall p c lx, costs lx (parse_rest_k p c lx).
Proof.
  intros p c lx. unfold parse_rest_k.
  repeat match goal with |- costs _ (if ?b then _ else _) => destruct b; [first [apply escape_costs|apply take_while_costs|unfold costs; cbn [fst snd]; rewrite emit_iter; lia]|] end.
  unfold costs. cbn [fst snd get_or_insert_literal iter]. lia.
Qed.
Lemma char_costs : forall p c lx, costs lx (parse_char_k p c lx).
Proof.
  intros p c lx. unfold parse_char_k. destruct (char_eqb c c_nl); [unfold costs; cbn [fst snd]; rewrite eol_iter; lia|].
  assert (R : forall lx1, lx1 = lx -> costs lx (after_k 1 (parse_rest_k p c lx1))).
  { intros lx1 ->. pose proof (rest_costs p c lx) as X. unfold costs, after_k in *. cbn [fst snd]. lia. }
  destruct (char_eqb c c_cr); [|destruct (char_eqb c c_lcurly); [|destruct (char_eqb c c_percent); [|apply rest_costs]]].
  all: destruct (next_is_k _ lx) as [[[] lx1] k] eqn:E; apply next_is_pays in E; destruct E as [-> E]; [|exact (R lx1 E)].
  all: unfold costs; cbn [fst snd]; rewrite ?eol_iter, ?emit_iter, E; lia.
Qed.
Lemma advance_costs : forall f lx lx1 k, advance_loop_k f lx = Ok (lx1, k) -> length (iter lx) <= k + length (iter lx1) /\ (queue lx1 = [] -> length (iter lx) < k).
Proof.
  induction f as [|f IH]; intros lx lx1 k H; [discriminate|]. cbn [advance_loop_k] in H. destruct (queue lx) as [|t q] eqn:Q; [|injection H as <- <-; rewrite Q; split; [lia|discriminate]].
  destruct (next_char false lx) as [[[p c]|] lx0] eqn:N.
  - apply next_char_len in N. pose proof (char_costs p c lx0) as P. destruct (parse_char_k p c lx0) as [lx2 k2]. unfold costs in P. cbn [fst snd] in P.
    destruct (advance_loop_k f lx2) as [[lx3 k3]| |] eqn:A; try discriminate. cbn [bind] in H. injection H as <- <-. apply IH in A. destruct A as [A1 A2]. split; [lia|]. intros E. specialize (A2 E). lia.
  - apply next_char_none in N. destruct N as [N ->]. injection H as <- <-. rewrite N. cbn. split; lia.
Qed.
Lemma collect_costs : forall f lx ts k, collect_loop_k f lx = Ok (ts, k) -> length (iter lx) < k.
Proof.
  induction f as [|f IH]; intros lx ts k H; [discriminate|]. cbn [collect_loop_k] in H. unfold lexer_next_k, advance_k in H.
  destruct (advance_loop_k (S (length (iter lx))) lx) as [[lx1 k1]| |] eqn:A; try discriminate. cbn [bind] in H. apply advance_costs in A. destruct A as [A1 A2]. destruct (queue lx1) as [|t q] eqn:E.
  - injection H as <- <-. apply A2. reflexivity.
  - set (lx2 := mk_lexer _ _ _ _ _ _ _) in H. cbn [bind] in H. destruct (collect_loop_k f lx2) as [[ts2 k2]| |] eqn:C; try discriminate. cbn [bind] in H. injection H as <- <-. apply IH in C. change (iter lx2) with (iter lx1) in C. lia.
Qed.
Theorem lex_reads_all : forall s ts k, lex_k s = Ok (ts, k) -> length s < k <= 3 * length s + 2.
Proof.
  intros s ts k E. unfold lex_k in E. pose proof (collect_costs _ _ _ _ E) as L. apply collect_pays in E. destruct E as [_ E]. cbn [lexer_new iter] in E, L. rewrite indices_length in E, L. split; assumption.
Qed.

(** ** The queue *)

Lemma literal_queue : forall e lx, length (queue (emit_literal_if_started e lx)) <= S (length (queue lx)).
Proof. intros e lx. unfold emit_literal_if_started. destruct (literal_start lx); [|lia]. cbn [queue replace_token]. destruct (l_token lx); [rewrite app_length; cbn; lia|lia]. Qed.
Lemma emit_queue : forall t lx, length (queue (emit t lx)) <= 2 + length (queue lx).
Proof.
  intros t lx. unfold emit. pose proof (literal_queue (byte_index (t_pos t)) lx) as H. cbn [queue replace_token]. destruct (l_token _); [rewrite app_length; cbn; lia|lia].
Qed.
Lemma eol_queue : forall p n lx, length (queue (eol p n lx)) <= 2 + length (queue lx).
Proof.
  intros p n lx. unfold eol. pose proof (literal_queue (byte_index p) lx) as H. destruct (l_token _) as [t|]; [destruct (kind_eqb (kind t) Eol)|]; cbn [queue]; rewrite ?app_length; cbn; lia.
Qed.
Lemma next_char_queue : forall b lx o lx1, next_char b lx = (o, lx1) -> queue lx1 = queue lx.
Proof. intros b lx o lx1 H. unfold next_char in H. destruct (iter lx) as [|[i c] it]; injection H as _ <-; reflexivity. Qed.
Lemma next_is_queue : forall c lx b lx1, next_is c lx = (b, lx1) -> queue lx1 = queue lx.
Proof.
  intros c lx b lx1 H. unfold next_is in H. destruct (iter lx) as [|[i d] it] eqn:E; [injection H as _ <-; reflexivity|]. destruct (char_eqb d c); injection H as _ <-; [|reflexivity].
  unfold next_char. rewrite E. reflexivity.
Qed.
Lemma rest_queue : forall p c lx, length (queue (parse_rest p c lx)) <= 2 + length (queue lx).
Proof.
  intros p c lx. unfold parse_rest.
  assert (T : forall d k, length (queue (take_while d k p lx)) <= 2 + length (queue lx)).
  { intros d k. unfold take_while. destruct (take_loop d (iter lx) (l_position lx)) as [it q]. etransitivity; [apply emit_queue|]. cbn [set_iter queue]. lia. }
  repeat match goal with |- length (queue (if ?b then _ else _)) <= _ => destruct b; [first [apply T|apply emit_queue|idtac]|] end.
  - unfold parse_escape. pose proof (literal_queue (byte_index p) lx) as H. destruct (next_char true _) as [[[q d]|] lx2] eqn:N; apply next_char_queue in N; cbn [get_or_insert_literal set_escaped queue]; rewrite N; lia.
  - cbn [get_or_insert_literal queue]. lia.
Qed.
Lemma char_queue : forall p c lx, length (queue (parse_char p c lx)) <= 2 + length (queue lx).
Proof.
  intros p c lx. unfold parse_char. destruct (char_eqb c c_nl); [apply eol_queue|]. destruct (char_eqb c c_cr); [|destruct (char_eqb c c_lcurly); [|destruct (char_eqb c c_percent); [|apply rest_queue]]].
  all: destruct (next_is _ lx) as [[] lx1] eqn:N; apply next_is_queue in N; rewrite <- N; first [apply eol_queue|apply emit_queue|apply rest_queue].
Qed.
Lemma finish_queue : forall lx, length (queue (finish lx)) <= 2 + length (queue lx).
Proof.
  intros lx. unfold finish. match goal with |- context [emit_literal_if_started ?e ?l] => pose proof (literal_queue e l) as H; change (queue l) with (queue lx) in H; destruct (l_token (emit_literal_if_started e l)) end; cbn [queue]; rewrite ?app_length; cbn [length]; lia.
Qed.
Lemma advance_queue : forall f lx lx1, length (queue lx) <= 2 -> advance_loop f lx = Ok lx1 -> length (queue lx1) <= 2.
Proof.
  induction f as [|f IH]; intros lx lx1 L H; [discriminate|]. cbn [advance_loop] in H. destruct (queue lx) as [|t q] eqn:Q; [|injection H as <-; rewrite Q; exact L].
  destruct (next_char false lx) as [[[p c]|] lx0] eqn:N; apply next_char_queue in N; rewrite Q in N.
  - apply IH in H; [exact H|]. etransitivity; [apply char_queue|]. rewrite N. cbn. lia.
  - injection H as <-. etransitivity; [apply finish_queue|]. rewrite N. cbn. lia.
Qed.
(** No push finds two tokens in the queue, and [next] leaves one at most. *)
Theorem queue_small : forall s lx, reached s lx -> length (queue lx) <= 1 /\ forall lx1, advance lx = Ok lx1 -> length (queue lx1) <= 2.
Proof.
  intros s lx R. assert (L : length (queue lx) <= 1).
  { induction R as [|lx o lx' R IH H]; [cbn; lia|]. unfold lexer_next in H. destruct (advance lx) as [lx1| |] eqn:A; try discriminate. cbn [bind] in H. apply advance_queue in A; [|lia].
    destruct (queue lx1) as [|t q] eqn:Q; injection H as _ <-; [rewrite Q; cbn; lia|cbn [queue length] in *; lia]. }
  split; [exact L|]. intros lx1 A. apply advance_queue in A; [exact A|lia].
Qed.
