(** Proofs about the counted parser: it is the parser, and its count is bounded by a polynomial. *)
From Verif Require Import Base Lexer Ops Parser Steps.

(** ** The counted parser is the parser *)

Lemma drop_bind {A B} (m : run A) (f : A -> run B) : drop (cbind m f) = bind (drop m) (fun a => drop (f a)).
Proof. destruct m as [[a k]| |]; cbn; auto. destruct (f a) as [[b j]| |]; reflexivity. Qed.
Lemma drop_tick {A} k (m : run A) : drop (tick k m) = drop m.
Proof. destruct m as [[a n]| |]; reflexivity. Qed.
Lemma drop_ret {A} (a : A) : drop (ret a) = Ok a. Proof. reflexivity. Qed.
Lemma drop_lift {A} k (m : outcome A) : drop (lift k m) = m. Proof. destruct m; reflexivity. Qed.
Lemma bind_ext {A B} (m : outcome A) (f g : A -> outcome B) : (forall a, f a = g a) -> bind m f = bind m g.
Proof. intros H. destruct m; cbn; auto. Qed.
Lemma bind_bind {A B C} (m : outcome A) (f : A -> outcome B) (g : B -> outcome C) :
  bind (bind m f) g = bind m (fun a => bind (f a) g).
Proof. destruct m; reflexivity. Qed.
Lemma bind_ok {A B} (a : A) (f : A -> outcome B) : bind (Ok a) f = f a. Proof. reflexivity. Qed.

Ltac era1 :=
  match goal with
  | |- ?x = ?x => reflexivity
  | |- drop OutOfFuel = _ => reflexivity
  | |- drop Panic = _ => reflexivity
  | |- context [drop (cbind _ _)] => rewrite drop_bind
  | |- context [drop (tick _ _)] => rewrite drop_tick
  | |- context [drop (ret _)] => rewrite drop_ret
  | |- context [drop (lift _ _)] => rewrite drop_lift
  | H : forall _, drop _ = _ |- _ => rewrite H
  | H : forall _ _, drop _ = _ |- _ => rewrite H
  | H : forall _ _ _, drop _ = _ |- _ => rewrite H
  | |- bind ?m _ = bind ?m _ => apply bind_ext; intros
  | x : (_ * _)%type |- _ => destruct x
  | |- drop (match ?x with _ => _ end) = _ => destruct x eqn:?
  | |- bind (drop (match ?x with _ => _ end)) _ = _ => destruct x eqn:?
  | |- context [bind (bind _ _) _] => rewrite !bind_bind
  | |- context [bind (Ok _) _] => rewrite !bind_ok
  end.
Ltac era := intros; repeat (era1; cbn beta iota).

Lemma span_drop r p : drop (span_k r p) = span r p.
Proof. unfold span_k. era. Qed.
Lemma eat_until_loop_drop f st m p : drop (eat_until_loop_k f st m p) = eat_until_loop f st m p.
Proof. revert p. induction f; cbn; era. Qed.
Lemma eat_until_drop m p : drop (eat_until_k m p) = eat_until m p.
Proof. apply eat_until_loop_drop. Qed.
Lemma orelse_drop f g f' g' p :
  (forall p, drop (f p) = f' p) -> (forall p, drop (g p) = g' p) -> drop (orelse_k f g p) = orelse f' g' p.
Proof. intros F G. unfold orelse_k, orelse. era. Qed.
#[local] Hint Rewrite span_drop eat_until_drop : drop.
Ltac erase := intros; repeat (first [progress autorewrite with drop | era1]; cbn beta iota).
Lemma push_leaf_drop n s b e p : drop (push_leaf_k n s b e p) = push_leaf n s b e p.
Proof. unfold push_leaf_k, push_leaf. erase. Qed.
#[local] Hint Rewrite push_leaf_drop : drop.
Lemma delimited_drop n o c p : drop (delimited_k n o c p) = delimited n o c p.
Proof.
  unfold delimited_k, delimited. erase.
Qed.
#[local] Hint Rewrite delimited_drop : drop.
Lemma destination_loop_drop f a b p : drop (destination_loop_k f a b p) = destination_loop f a b p.
Proof. revert a b p. induction f; cbn; erase. Qed.
#[local] Hint Rewrite destination_loop_drop : drop.
Lemma destination_drop p : drop (destination_k p) = destination p.
Proof.
  unfold destination_k, destination. erase.
Qed.
#[local] Hint Rewrite destination_drop : drop.
Lemma anchor_drop p : drop (anchor_k p) = anchor p.
Proof.
  unfold anchor_k, anchor, title_k, title. erase.
Qed.
#[local] Hint Rewrite anchor_drop : drop.
Lemma push_text_drop o e p : drop (push_text_k o e p) = push_text o e p.
Proof. unfold push_text_k, push_text. erase. Qed.
#[local] Hint Rewrite push_text_drop : drop.
Lemma insert_text_drop o e i p : drop (insert_text_k o e i p) = insert_text o e i p.
Proof. unfold insert_text_k, insert_text. erase. Qed.
#[local] Hint Rewrite insert_text_drop : drop.
Lemma strike_or_italic_drop p : drop (orelse_k strikethrough_k italic_k p) = orelse strikethrough italic p.
Proof. apply orelse_drop; apply delimited_drop. Qed.
#[local] Hint Rewrite strike_or_italic_drop : drop.
Lemma bold_loop_drop f o p : drop (bold_loop_k f o p) = bold_loop f o p.
Proof.
  revert o p. induction f; cbn [bold_loop_k bold_loop]; erase.
Qed.
#[local] Hint Rewrite bold_loop_drop : drop.
Lemma bold_drop p : drop (bold_k p) = bold p.
Proof.
  unfold bold_k, bold. erase.
Qed.
#[local] Hint Rewrite bold_drop : drop.
Lemma inline_node_drop p : drop (inline_node_k p) = inline_node p.
Proof.
  unfold inline_node_k, inline_node.
  repeat first [apply orelse_drop; intros | apply delimited_drop | apply bold_drop | apply anchor_drop].
Qed.
#[local] Hint Rewrite inline_node_drop : drop.
Lemma paragraph_loop_drop f o p : drop (paragraph_loop_k f o p) = paragraph_loop f o p.
Proof.
  revert o p. induction f; cbn [paragraph_loop_k paragraph_loop]; erase.
Qed.
#[local] Hint Rewrite paragraph_loop_drop : drop.
Lemma paragraph_drop p : drop (paragraph_k p) = paragraph p.
Proof.
  unfold paragraph_k, paragraph. erase.
Qed.
#[local] Hint Rewrite paragraph_drop : drop.
Lemma heading_loop_drop f o p : drop (heading_loop_k f o p) = heading_loop f o p.
Proof.
  revert o p. induction f; cbn [heading_loop_k heading_loop]; erase.
Qed.
#[local] Hint Rewrite heading_loop_drop : drop.
Lemma heading_drop p : drop (heading_k p) = heading p.
Proof.
  unfold heading_k, heading. erase.
Qed.
#[local] Hint Rewrite heading_drop : drop.
Lemma image_drop p : drop (image_k p) = image p.
Proof.
  unfold image_k, image, title_k, title. erase.
Qed.
#[local] Hint Rewrite image_drop : drop.
Lemma images_loop_drop f a b c p : drop (images_loop_k f a b c p) = images_loop f a b c p.
Proof.
  revert c p. induction f; cbn [images_loop_k images_loop]; erase.
Qed.
#[local] Hint Rewrite images_loop_drop : drop.
Lemma images_drop p : drop (images_k p) = images p.
Proof.
  unfold images_k, images. erase.
Qed.
#[local] Hint Rewrite images_drop : drop.
Lemma modifier_drop p : drop (modifier_k p) = modifier p.
Proof. unfold modifier_k, modifier. erase. Qed.
#[local] Hint Rewrite modifier_drop : drop.
Lemma thematic_break_drop p : drop (thematic_break_k p) = thematic_break p.
Proof. unfold thematic_break_k, thematic_break. erase. Qed.
#[local] Hint Rewrite thematic_break_drop : drop.
Lemma with_eof_drop {A} c (f : parser -> run (A * parser)) f' p :
  (forall p, drop (f p) = f' p) -> drop (with_eof_k c f p) = with_eof c f' p.
Proof. intros F. unfold with_eof_k, with_eof. erase. Qed.
Lemma with_eofs_drop {A} c (f : parser -> run (A * parser)) f' p :
  (forall p, drop (f p) = f' p) -> drop (with_eofs_k c f p) = with_eofs c f' p.
Proof. intros F. unfold with_eofs_k, with_eofs. erase. Qed.
Lemma with_no_stops_drop {A} (f : parser -> run (A * parser)) f' p :
  (forall p, drop (f p) = f' p) -> drop (with_no_stops_k f p) = with_no_stops f' p.
Proof. intros F. unfold with_no_stops_k, with_no_stops. erase. Qed.
Lemma item_text_drop c p : drop (with_eof_k c paragraph_k p) = with_eof c paragraph p.
Proof. apply with_eof_drop, paragraph_drop. Qed.
Lemma highlight_text_drop cs p : drop (with_eofs_k cs paragraph_k p) = with_eofs cs paragraph p.
Proof. apply with_eofs_drop, paragraph_drop. Qed.
#[local] Hint Rewrite item_text_drop highlight_text_drop : drop.
Lemma lists_drop f :
  (forall l k p, drop (list_item_k f l k p) = list_item f l k p) /\
  (forall l p, drop (list_inner_k f l p) = list_inner f l p) /\
  (forall l k p, drop (list_items_k f l k p) = list_items f l k p).
Proof.
  induction f as [|f (I1 & I2 & I3)]; [repeat split; reflexivity|].
  split; [|split]; intros; cbn [list_item_k list_inner_k list_items_k list_item list_inner list_items]; erase.
Qed.
Lemma list_drop l p : drop (list_k l p) = list_ l p.
Proof.
  unfold list_k, list_. erase. rewrite (proj1 (proj2 (lists_drop _))). erase.
Qed.
#[local] Hint Rewrite list_drop : drop.
Lemma icon_drop p : drop (icon_k p) = icon p.
Proof.
  unfold icon_k, icon. erase.
Qed.
#[local] Hint Rewrite icon_drop : drop.
Lemma icon_line_drop c p : drop (with_eof_k c icon_k p) = with_eof c icon p.
Proof. apply with_eof_drop, icon_drop. Qed.
#[local] Hint Rewrite icon_line_drop : drop.
Lemma highlight_loop_drop f p : drop (highlight_loop_k f p) = highlight_loop f p.
Proof.
  revert p. induction f; cbn [highlight_loop_k highlight_loop]; erase.
Qed.
#[local] Hint Rewrite highlight_loop_drop : drop.
Lemma highlight_drop p : drop (highlight_k p) = highlight p.
Proof.
  unfold highlight_k, highlight. erase.
Qed.
#[local] Hint Rewrite highlight_drop : drop.
Lemma embed_drop p : drop (embed_k p) = embed p.
Proof. unfold embed_k, embed. erase. Qed.
#[local] Hint Rewrite embed_drop : drop.
Lemma code_scan_drop (b : bool) p :
  drop (with_no_stops_k
          (fun q => let+ (_, q1) := (if b then modifier_k q else ret (false, q)) in eat_until_k is_backtick3 q1) p)
  = with_no_stops
      (fun q => let! (_, q1) := (if b then modifier q else Ok (false, q)) in eat_until is_backtick3 q1) p.
Proof. apply with_no_stops_drop. intros q. destruct b; erase. Qed.
#[local] Hint Rewrite code_scan_drop : drop.
Lemma code_drop p : drop (code_k p) = code p.
Proof. unfold code_k, code. erase. Qed.
#[local] Hint Rewrite code_drop : drop.
Lemma simple_block_drop p : drop (simple_block_k p) = simple_block p.
Proof.
  unfold simple_block_k, simple_block. apply with_eof_drop. intros q. erase.
  rewrite (orelse_drop _ _ (list_ 0) (orelse images (orelse thematic_break heading))).
  - erase.
  - intros. apply list_drop.
  - intros. repeat first [apply orelse_drop; intros | apply images_drop | apply thematic_break_drop | apply heading_drop].
Qed.
#[local] Hint Rewrite simple_block_drop : drop.
Lemma blocks_drop f p :
  (forall p, drop (collapsible_k f p) = collapsible f p) ->
  drop (orelse_k code_k (orelse_k (collapsible_k f) (orelse_k embed_k highlight_k)) p)
  = orelse code (orelse (collapsible f) (orelse embed highlight)) p.
Proof.
  intros H. apply orelse_drop; [apply code_drop|]. intros q. apply orelse_drop; [exact H|].
  intros q'. apply orelse_drop; [apply embed_drop|apply highlight_drop].
Qed.
Lemma docs_drop f :
  (forall p, drop (document_k f p) = document f p) /\
  (forall p, drop (document_loop_k f p) = document_loop f p) /\
  (forall p, drop (collapsible_k f p) = collapsible f p).
Proof.
  induction f as [|f (I1 & I2 & I3)]; [repeat split; reflexivity|].
  split; [|split]; intros; cbn [document_k document_loop_k collapsible_k document document_loop collapsible].
  - erase.
  - erase. rewrite (blocks_drop _ _ I3). erase.
  - erase.
    rewrite (with_eof_drop _ _ (fun q => let! q1 := document f q in Ok (tt, q1))) by erase. erase.
Qed.
Theorem parse_drop s : drop (parse_k s) = parse s.
Proof.
  unfold parse_k, parse, metadata_k, metadata. erase. rewrite (proj1 (docs_drop _)). erase.
Qed.
