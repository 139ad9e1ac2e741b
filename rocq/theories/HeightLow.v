(** A family of inputs for which the stack is as high as the input has openings. *)
From Verif Require Import Base Lexer LexSpec LexProofs LexFacts Ops Parser Steps StepsProofs StepsBound StepsFinal StreamSpec StreamProofs StreamProofs3 HeightSpec Height.

(** ** Openings of collapsible blocks, each on its own line, none of them closed *)
Fixpoint openings (m : nat) : str := match m with 0 => [] | S m => c_lcurly :: c_percent :: c_nl :: openings m end.
Lemma openings_length m : length (openings m) = 3 * m.
Proof. induction m as [|m IH]; cbn [openings length]; lia. Qed.
Definition open_piece : piece := mk_piece CollapsibleStart [c_lcurly; c_percent] false.
Definition eol_piece : piece := mk_piece Eol [c_nl] false.
Fixpoint open_pieces (m : nat) : list piece := match m with 0 => [] | S m => open_piece :: eol_piece :: open_pieces m end.
Lemma openings_scan m n : 3 * m <= n -> scan n (openings m) = open_pieces m.
Proof.
  revert n. induction m as [|m IH]; intros n L; [destruct n; reflexivity|].
  destruct n as [|[|[|n]]]; try lia. cbn [openings open_pieces].
  change (scan (S (S (S n))) (c_lcurly :: c_percent :: c_nl :: openings m))
    with (open_piece :: scan (S (S n)) (c_nl :: openings m)).
  assert (E : scan_one (c_nl :: openings m) = Some (eol_piece, openings m)) by (destruct m; reflexivity).
  cbn [scan]. rewrite E. f_equal. f_equal. change (scan (S n) (openings m) = open_pieces m). apply IH. lia.
Qed.
Lemma openings_merge m : merge (open_pieces m) = open_pieces m.
Proof.
  induction m as [|[|m] IH]; try reflexivity.
  change (merge (open_pieces (S (S m)))) with (open_piece :: eol_piece :: merge (open_pieces (S m))). rewrite IH. reflexivity.
Qed.
(** The tokens: openings at the start of a line and line feeds, in turn. *)
Inductive opened : list token -> Prop :=
| opened_nil : opened []
| opened_cons t u ts : is_collapsible_start t = true -> kind u = Eol -> opened ts -> opened (t :: u :: ts).
Lemma openings_annotate m o r : opened (annotate o 0 r (open_pieces m)) /\ length (annotate o 0 r (open_pieces m)) = 2 * m.
Proof.
  revert o r. induction m as [|m IH]; intros o r; cbn [open_pieces annotate]; [split; constructor|].
  destruct (IH (o + 0 + byte_len [c_lcurly; c_percent] + 0 + byte_len [c_nl]) (r + 0 + 1)) as [F L].
  split; [constructor; [reflexivity|reflexivity|exact F]|]. cbn [length].
  replace (2 * S m) with (S (S (2 * m))) by lia. do 2 f_equal. exact L.
Qed.
Lemma openings_lex m : exists ts, lex (openings m) = Ok ts /\ opened ts /\ length ts = 2 * m.
Proof.
  exists (spec_tokens (openings m)). split; [apply lex_correct|].
  unfold spec_tokens, pieces, raw_pieces. rewrite openings_scan by (rewrite openings_length; lia).
  rewrite openings_merge. apply openings_annotate.
Qed.
Lemma opened_nth ts i : opened ts -> 2 * i < length ts -> exists t u, nth_error ts (2 * i) = Some t /\ nth_error ts (2 * i + 1) = Some u /\
  is_collapsible_start t = true /\ kind u = Eol.
Proof.
  intros O. revert i. induction O as [|t u ts T U O IH]; intros i L; cbn [length] in L; [lia|].
  destruct i as [|i]; [exists t, u; auto|]. destruct (IH i) as (t' & u' & H); [lia|]. exists t', u'.
  replace (2 * S i) with (S (S (2 * i))) by lia. exact H.
Qed.

(** ** At the [i]-th of [m] openings *)
Definition at_opening (m i : nat) (p : parser) : Prop :=
  opened (tokens p) /\ length (tokens p) = 2 * m /\ pos p = 2 * i /\ i < m /\ Forall (eq StopCollapsibleEnd) (eof_stack p).
Lemma opening_nth m i p : at_opening m i p -> exists t u, nth_error (tokens p) (pos p) = Some t /\
  nth_error (tokens p) (pos p + 1) = Some u /\ is_collapsible_start t = true /\ kind u = Eol.
Proof. intros (O & L & P & I & _). rewrite P. apply opened_nth; [exact O|lia]. Qed.
Lemma start_kind t : is_collapsible_start t = true -> kind t = CollapsibleStart /\ col0 t = true.
Proof.
  unfold is_collapsible_start. intros H. apply andb_prop in H as [H C]. split; [|exact C]. apply kind_eqb_eq in H. exact H.
Qed.
Lemma opening_not_eof m i p : at_opening m i p -> at_eof p = false.
Proof.
  intros A. destruct (opening_nth m i p A) as (t & u & T & _ & S & _). apply start_kind in S as [S _].
  unfold at_eof, peek. rewrite T. destruct A as (_ & _ & _ & _ & F).
  induction F as [|c cs <- F IH]; [reflexivity|]. cbn [existsb matches]. rewrite S. exact IH.
Qed.
Lemma opening_eat m i f p : at_opening m i p -> (forall t, kind t = CollapsibleStart -> f t = false) -> eat f p = (None, p).
Proof.
  intros A F. destruct (opening_nth m i p A) as (t & u & T & _ & S & _). apply start_kind in S as [S _].
  unfold eat. rewrite T, (F t S). reflexivity.
Qed.
Lemma opening_eat_seq m i f fs p : at_opening m i p -> (forall t, kind t = CollapsibleStart -> f t = false) ->
  eat_seq (f :: fs) p = (None, p).
Proof.
  intros A O. unfold eat_seq. cbn [eat_all]. rewrite (opening_eat m i f p A O). destruct p; reflexivity.
Qed.
Lemma within_any {A} (m : run A) (Q : A -> nat -> Prop) : (forall a k, Q a k) -> within m Q.
Proof. destruct m as [[a k]| |]; cbn; auto. Qed.
Lemma opening_flat {A} (m : run A) (f : A -> run parser) l :
  within m (fun _ h => l <= h) -> within (hbind m f) (fun _ h => l <= h).
Proof. intros H. eapply within_hbind; [exact H|]. intros a k L. apply within_any. cbn beta in L. lia. Qed.
Lemma docs_low m f :
  (forall i p, at_opening m i p -> within (document_h f p) (fun _ h => 2 * (m - i) <= h)) /\
  (forall i p, at_opening m i p -> within (document_loop_h f p) (fun _ h => 2 * (m - i) <= h + 1)) /\
  (forall i p, at_opening m i p -> within (collapsible_h f p) (fun _ h => 2 * (m - i) <= h + 1)).
Proof.
  induction f as [|f (I1 & I2 & I3)]; [repeat split; intros; exact I|].
  split; [|split]; intros i p A.
  - cbn [document_h]. apply within_frame. eapply within_hbind; [apply (I2 i (push_op (new_start NDocument no_content) p)), A|].
    intros q h H. apply within_ret. cbn beta in H. lia.
  - cbn [document_loop_h]. rewrite (opening_not_eof m i p A).
    eapply within_hbind with (P := fun _ h => 2 * (m - i) <= h + 1).
    2:{ intros q h H. destruct (pos p <? pos q); [|exact I]. apply within_any. intros. lia. }
    rewrite (opening_eat m i is_terminator p A) by (intros t K; unfold is_terminator; rewrite K; reflexivity).
    eapply within_hbind with (P := fun _ h => 2 * (m - i) <= h + 1).
    2:{ intros [b q] h H. apply within_any. intros. lia. }
    unfold orelse_h at 1.
    assert (C : code p = Ok (false, p)).
    { unfold code, eat_fence. rewrite (opening_eat_seq m i _ _ p A) by (intros t K; unfold is_backtick3; rewrite K; reflexivity).
      rewrite (opening_eat m i _ p A) by (intros t K; unfold is_backtick3; rewrite K; reflexivity). reflexivity. }
    rewrite C. eapply within_hbind with (P := fun '(b, q) _ => b = false /\ q = p); [cbn; auto|]. intros [b q] h (-> & ->).
    unfold orelse_h. eapply within_hbind; [apply (I3 i p A)|]. intros [b q] k H. apply within_any. cbn beta in H. intros. lia.
  - cbn [collapsible_h]. apply within_frame.
    destruct (opening_nth m i p A) as (t & u & T & U & S & K). pose proof A as (O & L & P & LT & F).
    assert (E : eat_seq [is_collapsible_start; is_space_or_eol] p = (Some (pos p, pos p + 2), set_pos (pos p + 2) p)).
    { unfold eat_seq. cbn [eat_all]. unfold eat at 1. rewrite T, S. unfold eat. fields. rewrite U.
      unfold is_space_or_eol. rewrite K. cbn [kind_eqb orb]. fields. destruct p. unfold set_pos. fields.
      replace (pos + 1 + 1) with (pos + 2) by lia. reflexivity. }
    rewrite E. apply within_hbind with (P := fun _ _ => True); [apply within_any; auto|]. intros c h0 _.
    destruct (Nat.eq_dec (i + 1) m) as [EM|EM].
    { apply within_any. intros. lia. }
    assert (A' : forall q, tokens q = tokens p -> pos q = pos p + 2 -> Forall (eq StopCollapsibleEnd) (eof_stack q) ->
                 at_opening m (i + 1) q).
    { intros q E1 E2 E3. unfold at_opening. rewrite E1, E2. repeat split; auto; lia. }
    set (q := push_op _ _). assert (AQ : at_opening m (i + 1) q) by (apply A'; auto).
    destruct (opening_nth m (i + 1) q AQ) as (t' & u' & T' & _ & S' & _). apply start_kind in S' as [_ C'].
    assert (E' : modifier q = Ok (false, q)) by (unfold modifier, peek; rewrite T'; cbn [is_some_and]; rewrite C'; reflexivity).
    rewrite E'. apply within_hbind with (P := fun '(_, r) _ => r = q); [reflexivity|]. intros [b r] h1 ->.
    assert (AT : at_ col0 q = true) by (unfold at_, peek; rewrite T'; exact C').
    rewrite AT. cbn [negb].
    eapply within_hbind with (P := fun _ h => 2 * (m - i) <= h + 2).
    + unfold with_eof_h. eapply within_hbind with (P := fun _ h => 2 * (m - i) <= h + 2).
      * eapply within_hbind; [apply (I1 (i + 1)), A'; auto; constructor; auto|]. intros r h H. apply within_ret.
        cbn beta in H. lia.
      * intros [v r] h H. apply within_ret. lia.
    + intros [v r] h H. apply within_any. intros. lia.
Qed.
(** None of them is closed: the operations have no collapsible. *)
Lemma opened_no_end ts t : opened ts -> In t ts -> kind t <> CollapsibleEnd.
Proof.
  intros O. induction O as [|a b ts A B O IH]; [intros []|]. intros [<-|[<-|H]]; [|congruence|auto].
  apply start_kind in A as [A _]. congruence.
Qed.
Lemma openings_none m ops : parse (openings m) = Ok ops -> ~ In (Start NCollapsible) (map op_kind_of ops).
Proof.
  intros P H. destruct (openings_lex m) as (ts & LX & O & _). destruct (parse_valid _ _ P) as (es & R & _).
  assert (M : map op_kind_of ops = map fst es).
  { clear - R. induction R as [|o e os es (A & _) R IH]; cbn; [reflexivity|]. rewrite A, IH. reflexivity. }
  rewrite M in H. apply in_map_iff in H as ([k x] & E & H). cbn in E. subst k. apply in_split in H as (a & r & E).
  destruct (closed_node _ _ _ a NCollapsible x r _ _ P R E eq_refl)
    as (mid & y & b & ts1 & t & ts2 & u & ts3 & x1 & x2 & e & _ & _ & L & _ & _ & _ & _ & _ & _ & (D & _)).
  rewrite LX in L. injection L as ->. apply (opened_no_end _ u O); [|exact D].
  apply in_or_app. right. right. apply in_or_app. right. left. reflexivity.
Qed.
Lemma height_openings m : exists ops h, parse_h (openings m) = Ok (ops, h) /\ 2 * m <= h /\
  ~ In (Start NCollapsible) (map op_kind_of ops).
Proof.
  set (s := openings m). destruct (height_linear s) as (ops & h & E & P & _). exists ops, h. split; [exact E|].
  split; [|apply (openings_none m), P].
  destruct m as [|m]; [lia|].
  assert (H : within (parse_h s) (fun _ h => 2 * S m <= h)); [|rewrite E in H; exact H].
  destruct (openings_lex (S m)) as (ts & LX & F & L). fold s in LX.
  unfold parse_h, parser_from. rewrite LX. cbn [bind]. set (p0 := mk_parser s ts 0 [] []).
  assert (A : at_opening (S m) 0 p0) by (unfold at_opening; cbn -[Nat.mul]; repeat split; auto; lia).
  eapply within_hbind with (P := fun p k => p = p0); [cbn; auto|]. intros p k0 ->.
  assert (MD : Parser.metadata p0 = Ok (false, p0)).
  { unfold Parser.metadata, Parser.delimited. rewrite (opening_eat (S m) 0 is_three_dashes p0 A); [reflexivity|].
    intros t K. unfold is_three_dashes. rewrite K. reflexivity. }
  rewrite MD. eapply within_hbind with (P := fun '(_, p) k => p = p0); [reflexivity|]. intros [b p] k1 ->.
  eapply within_hbind; [apply (proj1 (docs_low (S m) _) 0 p0 A)|]. intros q h' H'. apply within_ret. cbn beta in H'. lia.
Qed.
Lemma height_unbounded d : exists s ops h, parse_h s = Ok (ops, h) /\ d < h.
Proof.
  destruct (height_openings (d + 1)) as (ops & h & E & L & _). exists (openings (d + 1)), ops, h. split; [exact E|lia].
Qed.
