(** The parser that counts the height of its stack: it is the parser, and the height is at most the number of tokens plus
    three. *)
From Verif Require Import Base Lexer LexSpec LexProofs LexFacts Ops Parser Steps StepsProofs StepsBound StepsFinal StreamProofs3 HeightSpec.

(** ** It is the parser *)
Lemma drop_hbind {A B} (m : run A) (f : A -> run B) : drop (hbind m f) = bind (drop m) (fun a => drop (f a)).
Proof. destruct m as [[a k]| |]; cbn; auto. destruct (f a) as [[b j]| |]; reflexivity. Qed.
Lemma drop_flat {A} (m : outcome A) : drop (flat m) = m. Proof. apply drop_lift. Qed.
Lemma drop_frame {A} (m : run A) : drop (frame m) = drop m. Proof. apply drop_tick. Qed.
Ltac dr1 :=
  match goal with
  | |- context [drop (hbind _ _)] => rewrite drop_hbind
  | |- context [drop (frame _)] => rewrite drop_frame
  | |- context [drop (flat _)] => rewrite drop_flat
  | _ => era1
  end.
Ltac dr := intros; repeat (dr1; cbn beta iota).
Lemma orelse_h_drop f g f' g' p : (forall p, drop (f p) = f' p) -> (forall p, drop (g p) = g' p) ->
  drop (orelse_h f g p) = orelse f' g' p.
Proof. intros F G. unfold orelse_h, orelse. dr. Qed.
Lemma with_eof_h_drop {A} c (f : parser -> run (A * parser)) f' p :
  (forall p, drop (f p) = f' p) -> drop (with_eof_h c f p) = with_eof c f' p.
Proof. intros F. unfold with_eof_h, with_eof. dr. Qed.
Lemma lists_h_drop f :
  (forall l k p, drop (list_item_h f l k p) = list_item f l k p) /\
  (forall l p, drop (list_inner_h f l p) = list_inner f l p) /\
  (forall l k p, drop (list_items_h f l k p) = list_items f l k p).
Proof.
  induction f as [|f (I1 & I2 & I3)]; [repeat split; reflexivity|].
  split; [|split]; intros; cbn [list_item_h list_inner_h list_items_h list_item list_inner list_items]; dr.
Qed.
Lemma list_h_drop l p : drop (list_h l p) = list_ l p.
Proof. unfold list_h, list_. dr. rewrite (proj1 (proj2 (lists_h_drop _))). dr. Qed.
Lemma simple_block_h_drop p : drop (simple_block_h p) = simple_block p.
Proof.
  unfold simple_block_h, simple_block. apply with_eof_h_drop. intros q. dr.
  rewrite (orelse_h_drop _ _ (list_ 0) (orelse images (orelse thematic_break heading))).
  - dr.
  - intros. apply list_h_drop.
  - intros. apply drop_flat.
Qed.
Lemma blocks_h_drop f p :
  (forall p, drop (collapsible_h f p) = collapsible f p) ->
  drop (orelse_h (fun q => flat (code q)) (orelse_h (collapsible_h f) (fun q => flat (orelse embed highlight q))) p)
  = orelse code (orelse (collapsible f) (orelse embed highlight)) p.
Proof.
  intros H. apply orelse_h_drop; [intros; apply drop_flat|]. intros q. apply orelse_h_drop; [exact H|intros; apply drop_flat].
Qed.
Lemma docs_h_drop f :
  (forall p, drop (document_h f p) = document f p) /\
  (forall p, drop (document_loop_h f p) = document_loop f p) /\
  (forall p, drop (collapsible_h f p) = collapsible f p).
Proof.
  induction f as [|f (I1 & I2 & I3)]; [repeat split; reflexivity|].
  split; [|split]; intros; cbn [document_h document_loop_h collapsible_h document document_loop collapsible].
  - dr.
  - dr. rewrite (blocks_h_drop _ _ I3). dr. rewrite simple_block_h_drop. dr.
  - dr. rewrite (with_eof_h_drop _ _ (fun q => let! q1 := document f q in Ok (tt, q1))) by dr. dr.
Qed.
Lemma parse_h_drop s : drop (parse_h s) = parse s.
Proof. unfold parse_h, parse. dr. rewrite (proj1 (docs_h_drop _)). dr. Qed.

(** ** The calls move forward *)
Lemma within_hbind {A B} (m : run A) (f : A -> run B) (P : A -> nat -> Prop) Q :
  within m P -> (forall a k, P a k -> within (f a) (fun b j => Q b (Nat.max k j))) -> within (hbind m f) Q.
Proof.
  destruct m as [[a k]| |]; cbn; auto. intros H F. specialize (F a k H). destruct (f a) as [[b j]| |]; cbn in *; auto.
Qed.
Lemma within_frame {A} (m : run A) Q : within m (fun a j => Q a (S j)) -> within (frame m) Q.
Proof. apply (within_tick 1). Qed.
Lemma within_flat {A} (m : outcome A) (Q : A -> nat -> Prop) : (forall a, m = Ok a -> Q a 0) -> within (flat m) Q.
Proof. apply within_lift. Qed.
Lemma within_drop {A} (m : run A) (Q : A -> nat -> Prop) (R : A -> Prop) :
  within m Q -> (forall a, drop m = Ok a -> R a) -> within m (fun a k => Q a k /\ R a).
Proof. destruct m as [[a k]| |]; cbn; auto. Qed.
Lemma runs {A} (mk : run A) m Q a : drop mk = m -> within mk Q -> m = Ok a -> exists k, Q a k.
Proof. destruct mk as [[b k]| |]; cbn; intros <-; try discriminate. intros H [= ->]. eauto. Qed.

Definition inside (p : parser) : Prop := pos p <= length (tokens p).
Definition fwd (p q : parser) : Prop := length (tokens q) = length (tokens p) /\ pos p <= pos q <= length (tokens p).
Definition left (p : parser) : nat := length (tokens p) - pos p.
Lemma fwd_inside p q : fwd p q -> inside q. Proof. unfold fwd, inside. lia. Qed.
Lemma fwd_trans p q r : fwd p q -> fwd q r -> fwd p r. Proof. unfold fwd. lia. Qed.
Lemma fwd_left p q : fwd p q -> left q <= left p. Proof. unfold fwd, left. lia. Qed.
Lemma moved_fwd p q : moved p q -> fwd p q. Proof. unfold moved, fwd. intros (-> & _ & H). auto. Qed.
Lemma kept_fwd p q : kept p q -> fwd p q. Proof. unfold kept, fwd. tauto. Qed.
Lemma attempt_fwd c f f' p b q : (forall n e, attempt n e (c n e) f) -> drop (f p) = f' -> inside p -> f' = Ok (b, q) -> fwd p q.
Proof.
  intros A D I E. assert (R : ready (length (tokens p)) (eof_reads p) p) by (unfold ready, inside in *; auto).
  destruct (runs _ _ _ _ D (A _ _ p R) E) as (k & M & _). apply moved_fwd, M.
Qed.
Lemma modifier_fwd p b q : inside p -> modifier p = Ok (b, q) -> fwd p q.
Proof. apply (attempt_fwd (fun n e => 4 * U n e) modifier_k); [apply modifier_attempt|apply modifier_drop]. Qed.
Lemma code_fwd p b q : inside p -> code p = Ok (b, q) -> fwd p q.
Proof. apply (attempt_fwd (fun n e => 13 * U n e) code_k); [apply code_attempt|apply code_drop]. Qed.
Lemma metadata_fwd p b q : inside p -> metadata p = Ok (b, q) -> fwd p q.
Proof. apply (attempt_fwd (fun n e => 5 * U n e) metadata_k); [intros; apply delimited_attempt|apply delimited_drop]. Qed.
Lemma paragraph_fwd c p u q : inside p -> with_eof c paragraph p = Ok (u, q) -> fwd p q.
Proof.
  unfold with_eof. intros I E. destruct (paragraph _) as [[v r]| |] eqn:P; cbn in E; try discriminate.
  injection E as <- <-. set (p0 := set_stack (c :: eof_stack p) p) in *.
  assert (R : ready (length (tokens p0)) (eof_reads p0) p0) by (unfold ready, inside in *; fields; auto).
  destruct (runs _ _ _ _ (paragraph_drop p0) (paragraph_within _ _ _ R) P) as (k & M & _). apply moved_fwd in M. exact M.
Qed.
Lemma brief_fwd p b q : inside p -> orelse embed highlight p = Ok (b, q) -> fwd p q.
Proof.
  intros I E. set (n := length (tokens p)). set (e := eof_reads p + 2).
  assert (R : roomy n e 2 p) by (unfold roomy, n, e, inside in *; auto).
  assert (D : drop (orelse_k embed_k highlight_k p) = orelse embed highlight p)
    by (apply orelse_drop; [apply embed_drop|apply highlight_drop]).
  assert (W : within (orelse_k embed_k highlight_k p) (fun '(_, q) _ => moved p q)).
  { unfold orelse_k. eapply within_bind; [apply (embed_attempt n e); eapply roomy_ready, R|]. intros [c r] k (M & _).
    destruct c; [apply within_ret, M|]. eapply within_mono; [apply (highlight_within n e); eapply roomy_moved; eauto|].
    intros [c r'] j (M' & _). eapply moved_trans; eauto. }
  destruct (runs _ _ _ _ D W E) as (k & M). apply moved_fwd, M.
Qed.
Lemma list_item_fwd f l k p o q : inside p -> l <= pos p -> list_item f l k p = Ok (o, q) ->
  fwd p q /\ (o <> None -> pos p < pos q).
Proof.
  intros I L E. set (n := length (tokens p)). set (e := eof_reads p + boundary_reads n).
  assert (R : roomy n e (boundary_reads n) p) by (unfold roomy, n, e, inside in *; auto).
  destruct (runs _ _ _ _ (proj1 (lists_drop f) l k p) (proj1 (lists_within n e f) l k p R L) E) as (c & M & H).
  split; [apply moved_fwd, M|]. destruct o; [intros _; apply H|congruence].
Qed.
Lemma list_fwd p b q : inside p -> list_ 0 p = Ok (b, q) -> fwd p q.
Proof.
  intros I E. set (n := length (tokens p)). set (e := eof_reads p + boundary_reads n).
  assert (R : roomy n e (boundary_reads n) p) by (unfold roomy, n, e, inside in *; auto).
  destruct (runs _ _ _ _ (list_drop 0 p) (list_within n e p R) E) as (c & M & _). apply moved_fwd, M.
Qed.
Lemma simple_block_fwd p u q : inside p -> simple_block p = Ok (u, q) -> fwd p q.
Proof.
  intros I E. set (n := length (tokens p)). set (e := eof_reads p + (1 + boundary_reads n)).
  assert (R : roomy n e (1 + boundary_reads n) p) by (unfold roomy, n, e, inside in *; auto).
  destruct (runs _ _ _ _ (simple_block_drop p) (simple_block_within n e p R) E) as (c & M & _). apply moved_fwd, M.
Qed.
Lemma collapsible_fwd f p b q : inside p -> collapsible f p = Ok (b, q) -> fwd p q.
Proof.
  intros I E. set (n := length (tokens p)). set (e := eof_reads p + room n p).
  assert (R : roomy n e (room n p) p) by (unfold roomy, n, e, inside in *; auto).
  destruct (runs _ _ _ _ (proj2 (proj2 (docs_drop f)) p) (proj2 (proj2 (docs_within n e f)) p R) E) as (c & M & _).
  apply kept_fwd, M.
Qed.

(** ** The height *)
Ltac fw := unfold fwd, inside, left in *; fields; lia.
Lemma lists_high f :
  (forall l k p, inside p -> l <= pos p -> within (list_item_h f l k p) (fun _ h => h <= 1 + left p)) /\
  (forall l p, inside p -> l <= pos p -> within (list_inner_h f l p) (fun _ h => h <= 2 + left p)) /\
  (forall l k p, inside p -> l <= pos p -> within (list_items_h f l k p) (fun _ h => h <= 1 + left p)).
Proof.
  induction f as [|f (I1 & I2 & I3)]; [repeat split; intros; exact I|].
  assert (J : forall l k p, inside p -> l <= pos p -> within (list_item_h f l k p)
    (fun '(o, q) h => h <= 1 + left p /\ fwd p q)).
  { intros l k p IN L.
    eapply within_mono with (P := fun '(o, q) h => h <= 1 + left p /\ fwd p q); [|intros [o q] h H; exact H].
    pose proof (within_drop _ _ (fun '(o, q) => fwd p q) (I1 l k p IN L)) as H.
    eapply within_mono; [apply H|intros [o q] h; cbn beta; auto].
    intros [o q] D. rewrite (proj1 (lists_h_drop f)) in D. eapply list_item_fwd; eauto. }
  split; [|split]; intros.
  - cbn [list_item_h]. apply within_frame. destruct (negb _); [apply within_ret; lia|].
    destruct (get _ _) as [m|]; [|apply within_ret; lia]. destruct (list_kind_of m); [|apply within_ret; lia].
    set (fs := if l =? 0 then _ else _).
    assert (F : fs <> [] /\ 2 <= length fs /\ (1 <= l -> 3 <= length fs)).
    { unfold fs. destruct l; cbn; split; try discriminate; lia. }
    destruct F as (F0 & F1 & F2).
    destruct (eat_seq_cases fs p F0) as [(q & -> & T & S & P & L)|(q & -> & T & S & P)]; [|apply within_ret; lia].
    eapply within_hbind with (P := fun _ h => h = 0); [apply within_flat; auto|]. intros c h ->.
    eapply within_hbind with (P := fun '(_, r) h => h = 0 /\ fwd q r).
    { apply within_flat. intros [u r] E. split; auto. apply paragraph_fwd in E; [exact E|].
      unfold inside. fields. rewrite T. lia. }
    intros [u r] h (-> & W).
    eapply within_hbind with (P := fun _ h => h <= left p); [|intros r' h H'; apply within_ret; lia].
    destruct (negb _); [|apply within_ret; lia].
    assert (X : inside r /\ l + 1 <= pos r /\ 2 + left r <= left p).
    { unfold fwd, inside, left in *. rewrite T in W. lia. }
    destruct X as (X1 & X2 & X3).
    eapply within_hbind; [apply I2; auto|]. intros [o r'] h H'. apply within_ret. cbn beta in H'. lia.
  - cbn [list_inner_h]. apply within_frame. eapply within_hbind; [apply (J l None p); auto|]. intros [o q] h (H' & W).
    destruct o as [lk|]; [|apply within_ret; lia].
    eapply within_hbind with (P := fun r h => h = 0 /\ tokens r = tokens q /\ pos r = pos q).
    { apply within_flat. intros r E. apply insert_op_same in E. tauto. }
    intros r j (-> & T & P).
    eapply within_hbind; [apply (I3 l lk r)|intros r' j HJ; apply within_ret; cbn beta in HJ].
    + unfold inside, fwd in *. rewrite T. lia.
    + unfold fwd in W. lia.
    + unfold left, fwd in *. rewrite T in HJ. lia.
  - cbn [list_items_h]. eapply within_hbind; [apply (J l (Some k) p); auto|]. intros [o q] h (H' & W).
    destruct o; [|apply within_ret; lia].
    eapply within_mono; [apply I3; fw|]. cbn beta. intros r j HJ. fw.
Qed.
Lemma list_high p : inside p -> within (list_h 0 p) (fun _ h => h <= 2 + left p).
Proof.
  intros IN. unfold list_h. eapply within_hbind; [apply lists_high; auto; lia|]. intros [o q] h H. apply within_ret. lia.
Qed.
Lemma simple_block_high p : inside p -> within (simple_block_h p) (fun _ h => h <= 2 + left p).
Proof.
  intros IN. unfold simple_block_h, with_eof_h.
  eapply within_hbind with (P := fun _ h => h <= 2 + left p); [|intros [u q] h H; apply within_ret; lia].
  set (q := set_stack _ p). assert (IN' : inside q) by exact IN. change (left p) with (left q).
  eapply within_hbind with (P := fun _ h => h <= 2 + left q).
  - unfold orelse_h. eapply within_hbind; [apply list_high, IN'|]. intros [b r] h H. cbn beta in H.
    destruct b; [apply within_ret; lia|]. apply within_flat. intros. lia.
  - intros [b r] h H. destruct b; [apply within_ret; lia|]. apply within_flat. intros. lia.
Qed.
Lemma docs_high f :
  (forall p, inside p -> within (document_h f p) (fun _ h => h <= 3 + left p)) /\
  (forall p, inside p -> within (document_loop_h f p) (fun _ h => h <= 2 + left p)) /\
  (forall p, inside p -> within (collapsible_h f p) (fun _ h => h <= 2 + left p)).
Proof.
  induction f as [|f (I1 & I2 & I3)]; [repeat split; intros; exact I|].
  split; [|split]; intros p IN.
  - cbn [document_h]. apply within_frame.
    eapply within_hbind; [apply (I2 (push_op (new_start NDocument no_content) p)), IN|].
    intros q h H. apply within_ret. cbn beta in H. change (left (push_op _ p)) with (left p) in H. lia.
  - cbn [document_loop_h]. destruct (at_eof p) eqn:AE; [apply within_ret; lia|]. apply not_eof_lt in AE.
    eapply within_hbind with (P := fun q h => h <= 2 + left p /\ fwd p q).
    2:{ intros q h (H & W). destruct (pos p <? pos q); [|exact I].
        eapply within_mono; [apply I2; eapply fwd_inside, W|]. cbn beta. intros r j HJ. apply fwd_left in W. lia. }
    destruct (eat_cases is_terminator p) as [(t & -> & _ & _ & L')| ->].
    + eapply within_hbind with (P := fun _ h => h = 0); [apply within_flat; auto|]. intros c h ->. apply within_ret.
      split; [lia|]. fw.
    + eapply within_hbind with (P := fun '(_, q) h => h <= 2 + left p /\ fwd p q).
      * unfold orelse_h at 1. eapply within_hbind with (P := fun '(_, q) h => h = 0 /\ fwd p q).
        { apply within_flat. intros [b q] E. split; auto. eapply code_fwd; eauto. }
        intros [b q] h (-> & W). destruct b; [apply within_ret; split; [lia|exact W]|]. pose proof (fwd_inside _ _ W) as IN1.
        unfold orelse_h. eapply within_hbind with (P := fun '(_, r) h => h <= 2 + left q /\ fwd q r).
        { pose proof (within_drop _ _ (fun '(o, r) => fwd q r) (I3 q IN1)) as H.
          eapply within_mono; [apply H|intros [o r] h; cbn beta; auto].
          intros [o r] D. rewrite (proj2 (proj2 (docs_h_drop f))) in D. eapply collapsible_fwd; eauto. }
        intros [b r] h (H & W1). pose proof (fwd_trans _ _ _ W W1) as W2. apply fwd_left in W.
        destruct b; [apply within_ret; split; [lia|exact W2]|].
        apply within_flat. intros [b x] E. apply brief_fwd in E; [|eapply fwd_inside, W1].
        split; [lia|]. eapply fwd_trans; eauto.
      * intros [b q] h (H & W). destruct b; [apply within_ret; split; [lia|exact W]|].
        pose proof (fwd_inside _ _ W) as IN1.
        eapply within_hbind with (P := fun '(_, r) h => h <= 2 + left q /\ fwd q r).
        { pose proof (within_drop _ _ (fun '(o, r) => fwd q r) (simple_block_high q IN1)) as H1.
          eapply within_mono; [apply H1|intros [o r] j; cbn beta; auto].
          intros [o r] D. rewrite simple_block_h_drop in D. eapply simple_block_fwd; eauto. }
        intros [u r] j (HJ & W1). apply within_ret. pose proof (fwd_left _ _ W). split; [lia|]. eapply fwd_trans; eauto.
  - cbn [collapsible_h]. apply within_frame.
    destruct (eat_seq_cases [is_collapsible_start; is_space_or_eol] p) as [(q & -> & T & S & P & L)|(q & -> & T & S & P)];
      [discriminate| |apply within_ret; lia].
    cbn [length] in P.
    eapply within_hbind with (P := fun _ h => h = 0); [apply within_flat; auto|]. intros c h ->.
    eapply within_hbind with (P := fun '(_, r) h => h = 0 /\ fwd q r).
    { apply within_flat. intros [u r] E. split; auto. apply modifier_fwd in E; [exact E|]. unfold inside. fields. rewrite T. lia. }
    intros [u r] h (-> & W). destruct (negb _); [apply within_ret; lia|].
    assert (X : inside r /\ 2 + left r <= left p).
    { unfold fwd, inside, left in *. rewrite T in W. lia. }
    destruct X as (X1 & X2).
    eapply within_hbind with (P := fun _ h => h <= 1 + left p).
    + unfold with_eof_h. eapply within_hbind with (P := fun _ h => h <= 1 + left p); [|intros [v x] h H; apply within_ret; lia].
      eapply within_hbind; [apply (I1 (set_stack (StopCollapsibleEnd :: eof_stack r) r)), X1|].
      intros x h H. apply within_ret. cbn beta in H. change (left (set_stack _ r)) with (left r) in H. lia.
    + intros [v x] h H. cbn beta zeta. destruct (eat_collapsible_end _) as [[rg|] y].
      * eapply within_hbind with (P := fun _ h => h = 0); [apply within_flat; auto|]. intros ce j ->. apply within_ret. lia.
      * apply within_ret. lia.
Qed.
Lemma parse_high s ts : lex s = Ok ts -> within (parse_h s) (fun _ h => h <= 3 + length ts).
Proof.
  intros L. unfold parse_h, parser_from. rewrite L. cbn [bind]. set (p0 := mk_parser s ts 0 [] []).
  eapply within_hbind with (P := fun p h => h = 0 /\ p = p0); [cbn; auto|]. intros p h (-> & ->).
  eapply within_hbind with (P := fun '(_, q) h => h = 0 /\ fwd p0 q).
  { apply within_flat. intros [b q] E. split; auto. eapply metadata_fwd; eauto. unfold inside, p0. cbn. lia. }
  intros [b q] h (-> & W). eapply within_hbind; [apply docs_high; eapply fwd_inside, W|].
  intros r h H. apply within_ret. cbn beta in H. apply fwd_left in W. unfold left at 2 in W. cbn in W. lia.
Qed.
Lemma height_linear s : exists ops h, parse_h s = Ok (ops, h) /\ parse s = Ok ops /\ h <= length s + 3.
Proof.
  destruct (parse_total s) as [ops P]. destruct (iterator_protocol s) as (ts & L & LL & _).
  pose proof (parse_high s ts L) as W. pose proof (parse_h_drop s) as D. rewrite P in D.
  destruct (parse_h s) as [[o h]| |]; cbn in *; try discriminate. injection D as ->.
  exists ops, h. split; [reflexivity|split; [exact P|lia]].
Qed.
