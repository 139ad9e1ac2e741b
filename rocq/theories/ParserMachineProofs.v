(** The parser with machine integers does what the parser of Parser.v does. *)
From Coq Require Import ZArith.
From Verif Require Import Base Lexer Ops LexFacts Parser StepsBound Machine MachineProofs ParserMachine.

(** The same outcome, and [Q] of the result. *)
Definition agree {A} (Q : A -> Prop) (x y : outcome A) : Prop := x = y /\ match y with Ok a => Q a | _ => True end.
Lemma agree_bind {A B} (P : A -> Prop) (Q : B -> Prop) x y f g :
  agree P x y -> (forall a, P a -> agree Q (f a) (g a)) -> agree Q (bind x f) (bind y g).
Proof. intros (-> & H) F. destruct y as [a| |]; cbn; [apply F, H|split; auto|split; auto]. Qed.
Lemma agree_ok {A} (Q : A -> Prop) a : Q a -> agree Q (Ok a) (Ok a).
Proof. split; auto. Qed.
Lemma agree_same {A} (Q : A -> Prop) x : (forall a, x = Ok a -> Q a) -> agree Q x x.
Proof. split; auto. destruct x; auto. Qed.
Lemma agree_none {A} (Q : A -> Prop) x : match x with Ok _ => False | _ => True end -> agree Q x x.
Proof. split; auto. destruct x; tauto. Qed.
Lemma agree_mono {A} (P Q : A -> Prop) x y : agree P x y -> (forall a, P a -> Q a) -> agree Q x y.
Proof. intros (-> & H) I. split; auto. destruct y; auto. Qed.
(** The rest of a turn, after a test of the next token that the one side writes inside the step and the other before it. *)
Lemma agree_bind_eat {A B} (P : A -> Prop) (Q : B -> Prop) (e : option (nat * nat) * parser) h h' f g :
  agree P (let '(o, q) := e in h o q) (let '(o, q) := e in h' o q) -> (forall a, P a -> agree Q (f a) (g a)) ->
  agree Q (let '(o, q) := e in bind (h o q) f) (bind (let '(o, q) := e in h' o q) g).
Proof. destruct e. apply agree_bind. Qed.
Lemma uadd_ok m a b : a + b <= m -> uadd m a b = Ok (a + b).
Proof. intros H. unfold uadd. apply Nat.leb_le in H. rewrite H. reflexivity. Qed.
Lemma usub_ok a b : b <= a -> usub a b = Ok (a - b).
Proof. intros H. unfold usub. apply Nat.leb_le in H. rewrite H. reflexivity. Qed.
Lemma any_u_ok {A} (f : A -> outcome bool) g l : (forall a, In a l -> f a = Ok (g a)) -> any_u f l = Ok (existsb g l).
Proof.
  induction l as [|a l IH]; intros H; cbn; [reflexivity|]. rewrite H by (left; auto). cbn. unfold or_then.
  rewrite IH by (intros; apply H; right; auto). destruct (g a); reflexivity.
Qed.
Lemma get_lt i p t : get i p = Some t -> i < length (tokens p).
Proof. unfold get. intros H. apply nth_error_Some. congruence. Qed.

Section Proofs.
  (** The greatest [usize], and a bound for the number of tokens. *)
  Variables m n : nat.
  Hypothesis TM : n <= m.
  Variables lo hi : Z.

  Definition ok_stop (c : stop_condition) : Prop := match c with StopListBoundary l _ => l + 1 <= m | _ => True end.
  Definition good (p : parser) : Prop :=
    length (tokens p) <= n /\ pos p <= length (tokens p) /\ Forall ok_stop (eof_stack p).
  Definition ext (p q : parser) : Prop :=
    length (tokens q) = length (tokens p) /\ eof_stack q = eof_stack p /\ pos p <= pos q <= length (tokens p).
  Lemma ext_good p q : good p -> ext p q -> good q.
  Proof. unfold good, ext. intros (A & B & C) (D & E & F). rewrite D, E. repeat split; auto; lia. Qed.
  Ltac ex :=
    unfold good, ext in *; fields;
    repeat match goal with H : _ /\ _ |- _ => destruct H end;
    repeat match goal with H : tokens _ = tokens _ |- _ => apply (f_equal (@length token)) in H end;
    repeat match goal with |- _ /\ _ => split end; auto; try lia; try congruence.
  Ltac gd := solve [assumption | match goal with G : good ?p |- good ?q => apply (ext_good p q G); solve [ex] end].

  Lemma next_u_ok p : good p -> next_u m p = Ok (next p).
  Proof.
    intros G. unfold next_u, next. destruct (pos p <? length (tokens p)) eqn:L; [|reflexivity].
    apply Nat.ltb_lt in L. rewrite uadd_ok by ex. reflexivity.
  Qed.
  Lemma eat_u_ok pred p : good p -> eat_u m pred p = Ok (eat pred p).
  Proof.
    intros G. unfold eat_u, eat. destruct (nth_error (tokens p) (pos p)) eqn:T; [|reflexivity].
    destruct (pred t); [|reflexivity]. apply peek_lt in T. rewrite uadd_ok by ex. reflexivity.
  Qed.
  Lemma at_list_boundary_u_ok p a b k : good p -> at_list_boundary_u m p a b k = Ok (at_list_boundary p a b k).
  Proof.
    intros G. apply any_u_ok. intros l _. cbv beta zeta. unfold and_then.
    assert (L : forall f, is_some_and f (get (pos p) p) = true -> pos p < length (tokens p)).
    { intros f. destruct (get (pos p) p) eqn:E; [|discriminate]. intros _. eapply get_lt, E. }
    destruct (is_some_and col0 (get (pos p) p)) eqn:C; cbn [andb]; [|destruct (l =? 0); reflexivity].
    apply L in C. destruct (l =? 0).
    - destruct (is_some_and _ (get (pos p) p)); cbn [andb]; [|reflexivity]. rewrite uadd_ok by ex. reflexivity.
    - destruct (is_some_and _ (get (pos p) p)); cbn [andb]; [|reflexivity]. rewrite uadd_ok by ex. cbn [bind].
      destruct (get (pos p + 1) p) as [t|] eqn:E; [|reflexivity]. apply get_lt in E. cbn [is_some_and].
      destruct (is_list_marker _ t); cbn [andb]; [|reflexivity]. rewrite uadd_ok by ex. cbn [bind].
      replace (pos p + 1 + 1) with (pos p + 2) by lia. reflexivity.
  Qed.
  Lemma matches_u_ok p t c : good p -> pos p < length (tokens p) -> ok_stop c -> matches_u m p t c = Ok (matches c t p).
  Proof.
    intros G L S. destruct c; cbn [matches_u matches ok_stop] in *; try reflexivity.
    - unfold or_then, and_then. destruct (_ && _); [reflexivity|]. destruct (kind_eqb _ _); [|reflexivity].
      rewrite uadd_ok by ex. reflexivity.
    - unfold and_then. destruct (col0 t); [|reflexivity]. rewrite uadd_ok by ex. cbn [bind].
      rewrite at_list_boundary_u_ok by gd. reflexivity.
  Qed.
  Lemma at_eof_u_ok p : good p -> at_eof_u m p = Ok (at_eof p).
  Proof.
    intros G. unfold at_eof_u, at_eof. destruct (peek p) eqn:T; [|reflexivity]. apply peek_lt in T.
    apply (any_u_ok _ (fun c => matches c t p)). intros c I. apply matches_u_ok; auto.
    destruct G as (_ & _ & F). rewrite Forall_forall in F. auto.
  Qed.
  Lemma at_block_boundary_u_ok p : good p -> at_block_boundary_u m p = Ok (at_block_boundary p).
  Proof.
    intros G. unfold at_block_boundary_u, at_block_boundary. rewrite at_eof_u_ok by gd. cbn. destruct (at_eof p); reflexivity.
  Qed.
  Lemma eat_all_u_ok fs p : good p -> eat_all_u m fs p = Ok (eat_all fs p).
  Proof.
    revert p. induction fs as [|f fs IH]; intros p G; cbn [eat_all_u eat_all]; [reflexivity|].
    rewrite eat_u_ok by gd. cbn [bind]. destruct (eat_cases f p) as [(t & -> & _ & _ & L)| ->]; [|reflexivity].
    apply IH. gd.
  Qed.
  Lemma eat_seq_u_ok fs p : good p -> eat_seq_u m fs p = Ok (eat_seq fs p).
  Proof.
    intros G. unfold eat_seq_u, eat_seq. rewrite eat_all_u_ok by gd. cbn [bind]. destruct (eat_all fs p) as [[] q]; reflexivity.
  Qed.
  Ltac plain := repeat first
    [ rewrite eat_u_ok by gd | rewrite eat_seq_u_ok by gd | rewrite at_eof_u_ok by gd | rewrite next_u_ok by gd
    | rewrite at_block_boundary_u_ok by gd ]; cbn [bind].

  Lemma eat_until_loop_u_ok f st fs p : good p -> st <= pos p ->
    agree (fun '(o, q) => length (tokens q) = length (tokens p) /\ eof_stack q = eof_stack p /\ st <= pos q <= length (tokens p) /\
      (o <> None -> st < pos q))
      (eat_until_loop_u m f st fs p) (eat_until_loop f st fs p).
  Proof.
    revert p. induction f as [|f IH]; intros p G L; cbn [eat_until_loop_u eat_until_loop]; [apply agree_none, I|].
    destruct (nth_error (tokens p) (pos p)) as [t|] eqn:T; [|apply agree_ok; ex; congruence].
    apply peek_lt in T. plain. destruct (at_eof p); [apply agree_ok; ex; congruence|].
    rewrite uadd_ok by ex. cbn [bind]. destruct (fs t); [apply agree_ok; ex; intros; lia|].
    eapply agree_mono; [apply IH; [gd|ex]|]. intros [o q]. ex.
  Qed.
  Lemma eat_until_more fs p : good p ->
    agree (fun '(o, q) => ext p q /\ (o <> None -> pos p < pos q)) (eat_until_u m fs p) (eat_until fs p).
  Proof. intros G. eapply agree_mono; [apply eat_until_loop_u_ok; auto|]. intros [o q] (A & B & C & D). split; [ex|exact D]. Qed.
  Lemma eat_until_u_ok fs p : good p -> agree (fun '(o, q) => ext p q) (eat_until_u m fs p) (eat_until fs p).
  Proof. intros G. eapply agree_mono; [apply eat_until_more, G|]. intros [o q]. tauto. Qed.

  Definition attempts (f g : parser -> outcome (bool * parser)) : Prop :=
    forall p, good p -> agree (fun '(b, q) => ext p q /\ (b = true -> pos p < pos q)) (f p) (g p).
  Lemma orelse_ok f g f' g' : attempts f f' -> attempts g g' -> attempts (orelse f g) (orelse f' g').
  Proof.
    intros F G p R. unfold orelse. eapply agree_bind; [apply F, R|]. intros [b q] (E & B).
    destruct b; [apply agree_ok; auto|]. eapply agree_mono; [apply G; gd|]. intros [b r] (E' & B'). split; [ex|].
    intros H. specialize (B' H). ex.
  Qed.
  Ltac sp := eapply agree_bind; [apply (agree_same (fun _ => True)); auto|]; intros ? _.
  Lemma push_leaf_ok k a b c p q d : pos p + d <= pos q -> ext p q ->
    agree (fun '(b, q) => ext p q /\ (b = true -> pos p + d <= pos q)) (push_leaf k a b c q) (push_leaf k a b c q).
  Proof. intros L E. unfold push_leaf. sp. sp. sp. apply agree_ok. split; [ex|]. intros _. ex. Qed.
  Lemma delimited_more k o c p : good p ->
    agree (fun '(b, q) => ext p q /\ (b = true -> pos p + 2 <= pos q)) (delimited_u m k o c p) (delimited k o c p).
  Proof.
    intros G. unfold delimited_u, delimited. plain. destruct (eat_cases o p) as [(t & -> & _ & _ & L)| ->].
    2:{ apply agree_ok. split; [ex|discriminate]. }
    eapply agree_bind; [apply eat_until_more; gd|]. intros [[[b e]|] q] (E & M).
    - assert (M' : pos (set_pos (pos p + 1) p) < pos q) by (apply M; discriminate). clear M. apply push_leaf_ok; ex.
    - apply agree_ok. split; [ex|discriminate].
  Qed.
  Lemma delimited_u_ok k o c : attempts (delimited_u m k o c) (delimited k o c).
  Proof. intros p G. eapply agree_mono; [apply delimited_more, G|]. intros [b q] (E & B). split; [exact E|]. intros H. apply B in H. lia. Qed.

  Hypothesis LO : (lo <= 0)%Z.
  Lemma destination_loop_u_ok f c e p : good p -> 1 <= c -> (Z.of_nat c + Z.of_nat (length (tokens p) - pos p) <= hi)%Z ->
    agree (fun '(r, q) => ext p q /\ (r = e \/ pos p <= r < pos q))
      (destination_loop_u m lo hi f (Z.of_nat c) e p) (destination_loop f c e p).
  Proof.
    revert c e p. induction f as [|f IH]; intros c e p G N H; cbn [destination_loop_u destination_loop]; [apply agree_none, I|].
    destruct (peek p) as [t|] eqn:T; [|apply agree_ok; ex]. apply peek_lt in T.
    plain. destruct (at_eof p); [apply agree_ok; ex|].
    assert (D : forall k r, 1 <= k -> (Z.of_nat k <= Z.of_nat c + 1)%Z -> r = e \/ r = pos p ->
      agree (fun '(r, q) => ext p q /\ (r = e \/ pos p <= r < pos q))
        (destination_loop_u m lo hi f (Z.of_nat k) r (set_pos (pos p + 1) p)) (destination_loop f k r (set_pos (pos p + 1) p))).
    { intros k r K Q R. eapply agree_mono; [apply IH; [gd|exact K|fields; lia]|]. intros [r' q] (E & CC). split; [ex|].
      ex. }
    destruct (kind t); rewrite ?uadd_ok by ex; cbn [bind]; try (apply D; auto; lia).
    - rewrite within_ok by lia. cbn [bind]. replace (Z.of_nat c + 1)%Z with (Z.of_nat (c + 1)) by lia. apply D; auto; lia.
    - rewrite within_ok by lia. cbn [bind]. replace (Z.of_nat c - 1)%Z with (Z.of_nat (c - 1)) by lia.
      destruct (c - 1 =? 0) eqn:E.
      + apply Nat.eqb_eq in E. rewrite E. apply agree_ok. ex.
      + apply Nat.eqb_neq in E. rewrite (proj2 (Z.eqb_neq _ _)) by lia. apply D; auto; lia.
  Qed.
  Hypothesis HI : (Z.of_nat n <= hi + 2)%Z.
  Lemma destination_u_ok p : good p -> 2 <= pos p ->
    agree (fun '(b, q) => ext p q /\ (b = true -> pos p < pos q)) (destination_u m lo hi p) (destination p).
  Proof.
    intros G A2. unfold destination_u, destination. plain.
    destruct (eat_cases is_left_paren p) as [(t & -> & _ & _ & L)| ->]; [|apply agree_ok; split; [ex|discriminate]].
    change 1%Z with (Z.of_nat 1). eapply agree_bind; [apply destination_loop_u_ok; [gd|lia|ex]|].
    intros [r q] (E & R). destruct (pos p =? r) eqn:Q; [apply agree_ok; split; [ex|discriminate]|].
    apply Nat.eqb_neq in Q. sp. rewrite uadd_ok by ex. cbn [bind]. sp. rewrite uadd_ok by ex. cbn [bind]. sp.
    apply agree_ok. split; [ex|]. intros _. ex.
  Qed.
  Ltac no := apply agree_ok; split; [ex|discriminate].
  Lemma anchor_u_ok : attempts (anchor_u m lo hi) anchor.
  Proof.
    intros p G. unfold anchor_u, anchor. cbv zeta. eapply agree_bind; [apply delimited_more; gd|]. intros [b q] (E & B).
    destruct b; cbn [negb]; [|no]. specialize (B eq_refl).
    eapply agree_bind; [apply destination_u_ok; [gd|ex]|]. intros [b r] (E' & B').
    destruct b; cbn [negb]; [|no]. apply agree_ok. split; [ex|]. intros _. ex.
  Qed.
  Lemma push_text_same o e q r : push_text o e q = Ok r -> tokens r = tokens q /\ eof_stack r = eof_stack q /\ pos r = pos q.
  Proof.
    destruct o; cbn [push_text]; [|intros [= <-]; auto]. destruct (span _ _); cbn; try discriminate. intros [= <-]. auto.
  Qed.
  Lemma insert_text_same o e i q r : insert_text o e i q = Ok r -> tokens r = tokens q /\ eof_stack r = eof_stack q /\ pos r = pos q.
  Proof.
    destruct o; cbn [insert_text]; [|intros [= <-]; auto]. destruct (span _ _); cbn [bind]; try discriminate.
    apply insert_op_same.
  Qed.
  Ltac same L := eapply agree_bind; [apply agree_same; intros ? ?H; apply L in H; exact H|]; cbn beta; intros ? ?H.

  Lemma bold_loop_u_ok f o p : good p -> agree (fun '(b, q) => ext p q) (bold_loop_u m f o p) (bold_loop f o p).
  Proof.
    revert o p. induction f as [|f IH]; intros o p G; cbn [bold_loop_u bold_loop]; [apply agree_none, I|].
    destruct (peek p) as [t|] eqn:T; [|apply agree_ok; ex]. apply peek_lt in T. plain.
    destruct (at_eof p); [apply agree_ok; ex|]. plain.
    destruct (eat_cases is_star2 p) as [(t' & -> & _ & _ & L)| ->].
    - same push_text_same. sp. apply agree_ok. ex.
    - eapply agree_bind; [apply (orelse_ok _ _ _ _ (delimited_u_ok _ _ _) (delimited_u_ok _ _ _)); gd|]. intros [b q] (E & B).
      destruct b.
      + same insert_text_same. eapply agree_mono; [apply IH; gd|]. intros [b r] E'. ex.
      + plain. pose proof (next_moves q) as NM. destruct (Nat.lt_ge_cases (pos q) (length (tokens q))) as [L|L].
        * specialize (NM L). eapply agree_mono; [apply IH; gd|]. intros [b r] E'. ex.
        * assert (next q = q) as -> by (unfold next; apply Nat.ltb_ge in L; rewrite L; reflexivity).
          eapply agree_mono; [apply IH; gd|]. intros [b r] E'. ex.
  Qed.
  Lemma next_ext q : pos q <= length (tokens q) -> ext q (next q).
  Proof. intros L. unfold next. destruct (pos q <? length (tokens q)) eqn:E; [apply Nat.ltb_lt in E; ex|ex]. Qed.
  Lemma bold_u_ok : attempts (bold_u m) bold.
  Proof.
    intros p G. unfold bold_u, bold. plain.
    destruct (eat_cases is_star2 p) as [(t & -> & _ & _ & L)| ->]; [|no].
    sp. eapply agree_bind; [apply bold_loop_u_ok; gd|]. intros [b q] E. destruct b; [|no].
    apply agree_ok. split; [ex|]. intros _. ex.
  Qed.
  Lemma inline_node_u_ok : attempts (inline_node_u m lo hi) inline_node.
  Proof. repeat first [apply orelse_ok | apply delimited_u_ok | apply bold_u_ok | apply anchor_u_ok]. Qed.
  Lemma paragraph_loop_u_ok f o p : good p -> agree (fun '(b, q) => ext p q) (paragraph_loop_u m lo hi f o p) (paragraph_loop f o p).
  Proof.
    revert o p. induction f as [|f IH]; intros o p G; cbn [paragraph_loop_u paragraph_loop]; [apply agree_none, I|].
    plain. destruct (at_eof p); [apply agree_ok; ex|].
    eapply agree_bind; [apply inline_node_u_ok; gd|]. intros [b q] (E & B). destruct b.
    - same insert_text_same. eapply agree_mono; [apply IH; gd|]. intros [b r] E'. ex.
    - plain. pose proof (next_ext q) as NM. assert (NE : ext q (next q)) by (apply NM; ex). clear NM.
      eapply agree_mono; [apply IH; gd|]. intros [b r] E'. ex.
  Qed.
  Lemma paragraph_u_ok p : good p -> agree (fun '(b, q) => ext p q) (paragraph_u m lo hi p) (paragraph p).
  Proof.
    intros G. unfold paragraph_u, paragraph. cbv zeta. eapply agree_bind; [apply paragraph_loop_u_ok; gd|]. intros [o q] E.
    same push_text_same. apply agree_ok. ex.
  Qed.
  Lemma heading_loop_u_ok f o p : good p -> agree (fun '(b, q) => ext p q) (heading_loop_u m lo hi f o p) (heading_loop f o p).
  Proof.
    revert o p. induction f as [|f IH]; intros o p G; cbn [heading_loop_u heading_loop]; [apply agree_none, I|].
    destruct (peek p) as [t|] eqn:T; [|apply agree_ok; ex]. plain. destruct (at_eof p); [apply agree_ok; ex|].
    eapply agree_bind; [apply anchor_u_ok; gd|]. intros [b q] (E & B). destruct b.
    - same insert_text_same. eapply agree_mono; [apply IH; gd|]. intros [b r] E'. ex.
    - plain. pose proof (next_ext q) as NM. assert (NE : ext q (next q)) by (apply NM; ex). clear NM.
      eapply agree_mono; [apply IH; gd|]. intros [b r] E'. ex.
  Qed.
  Ltac seqs fs p :=
    let q := fresh "q" in
    destruct (eat_seq_cases fs p) as [(q & -> & ?T & ?S & ?P & ?L)|(q & -> & ?T & ?S & ?P)];
      [discriminate|cbn [length] in *|].
  Lemma heading_u_ok : attempts (heading_u m lo hi) heading.
  Proof.
    intros p G. unfold heading_u, heading. plain. seqs [is_hash; is_space_1] p; [|no].
    sp. eapply agree_bind; [apply heading_loop_u_ok; gd|]. intros [o r] E. same push_text_same.
    apply agree_ok. split; [ex|]. intros _. ex.
  Qed.
  Lemma image_u_ok : attempts (image_u m lo hi) image.
  Proof.
    intros p G. unfold image_u, image. plain. destruct (eat_cases is_bang p) as [(t & -> & _ & _ & L)| ->]; [|no].
    sp. eapply agree_bind; [apply delimited_more; gd|]. intros [b q] (E & B). destruct b; cbn [negb]; [|no].
    specialize (B eq_refl). eapply agree_bind; [apply destination_u_ok; [gd|ex]|]. intros [b r] (E' & _). destruct b; cbn [negb]; [|no].
    plain. destruct (eat_cases is_eol r) as [(t' & -> & _ & _ & L')| ->].
    - sp. apply agree_ok. split; [ex|]. intros _. ex.
    - plain. destruct (at_eof r); [|no]. apply agree_ok. split; [ex|]. intros _. ex.
  Qed.
  Lemma images_loop_u_ok f a b c p : good p -> a <= pos p -> c <= pos p - a ->
    agree (fun '(o, q) => length (tokens q) = length (tokens p) /\ eof_stack q = eof_stack p /\ a <= pos q <= length (tokens p) /\
      match o with Some d => d <= pos q - a | None => True end)
      (images_loop_u m lo hi f a b c p) (images_loop f a b c p).
  Proof.
    revert c p. induction f as [|f IH]; intros c p G A C; cbn [images_loop_u images_loop]; [apply agree_none, I|].
    destruct (peek p) as [t|] eqn:T; [|apply agree_ok; ex]. apply peek_lt in T.
    eapply agree_bind; [apply image_u_ok; gd|]. intros [x q] (E & B). destruct x.
    - specialize (B eq_refl). rewrite uadd_ok by ex. cbn [bind].
      eapply agree_mono; [apply IH; [gd|ex|ex]|]. intros [o r] R. ex.
    - plain. destruct (at_eof q); apply agree_ok; ex.
  Qed.
  Lemma images_u_ok : attempts (images_u m lo hi) images.
  Proof.
    intros p G. unfold images_u, images. cbv zeta. eapply agree_bind; [apply images_loop_u_ok; [gd|lia|lia]|].
    intros [[d|] q] (T & S & P & D); [|no].
    destruct (1 <? d) eqn:E.
    - same insert_op_same. apply agree_ok. split; [ex|]. intros Z. apply Nat.ltb_lt in Z. ex.
    - apply agree_ok. split; [ex|]. intros Z. apply Nat.ltb_lt in Z. ex.
  Qed.
  Lemma modifier_u_ok p : good p -> agree (fun '(b, q) => ext p q) (modifier_u m p) (modifier p).
  Proof.
    intros G. unfold modifier_u, modifier. destruct (is_some_and col0 (peek p)); [apply agree_ok; ex|].
    eapply agree_bind; [apply eat_until_u_ok; gd|]. intros [[[b e]|] q] E; [|apply agree_ok; ex]. sp. sp. apply agree_ok. ex.
  Qed.
  Lemma thematic_break_u_ok : attempts (thematic_break_u m) thematic_break.
  Proof.
    intros p G. unfold thematic_break_u, thematic_break. plain.
    destruct (eat_cases is_dash5 p) as [(t & -> & _ & _ & L)| ->]; [|no]. sp. apply agree_ok. split; [ex|]. intros _. ex.
  Qed.
  Lemma with_eof_ok {A} c (f g : parser -> outcome (A * parser)) p : good p -> ok_stop c ->
    (forall q, good q -> agree (fun '(_, r) => ext q r) (f q) (g q)) ->
    agree (fun '(_, q) => ext p q) (with_eof c f p) (with_eof c g p).
  Proof.
    intros G C F. unfold with_eof. eapply agree_bind; [apply F|].
    - destruct G as (A1 & A2 & A3). repeat split; auto. constructor; auto.
    - intros [a q] E. apply agree_ok. unfold ext in *. fields. destruct E as (E1 & E2 & E3). rewrite E2. cbn. auto.
  Qed.
  Lemma with_eofs_ok {A} cs (f g : parser -> outcome (A * parser)) p : good p -> Forall ok_stop cs ->
    (forall q, good q -> agree (fun '(_, r) => ext q r) (f q) (g q)) ->
    agree (fun '(_, q) => ext p q) (with_eofs cs f p) (with_eofs cs g p).
  Proof.
    intros G C F. unfold with_eofs. eapply agree_bind; [apply F|].
    - destruct G as (A1 & A2 & A3). repeat split; auto. fields. rewrite rev_append_rev. apply Forall_app. split; auto.
      apply Forall_rev, C.
    - intros [a q] E. apply agree_ok. unfold ext in *. fields. destruct E as (E1 & E2 & E3). rewrite E2.
      rewrite rev_append_rev, skipn_app, skipn_all2 by (rewrite rev_length; lia). rewrite rev_length, Nat.sub_diag. cbn. auto.
  Qed.
  Lemma lists_u_ok f :
    (forall l k p, good p -> l <= pos p -> agree (fun '(o, q) => ext p q /\ (o <> None -> pos p < pos q))
      (list_item_u m lo hi f l k p) (list_item f l k p)) /\
    (forall l p, good p -> l <= pos p -> agree (fun '(o, q) => ext p q /\ (o <> None -> pos p < pos q))
      (list_inner_u m lo hi f l p) (list_inner f l p)) /\
    (forall l k p, good p -> l <= pos p -> agree (fun q => ext p q) (list_items_u m lo hi f l k p) (list_items f l k p)).
  Proof.
    induction f as [|f (I1 & I2 & I3)]; [repeat split; intros; apply agree_none, I|].
    split; [|split]; intros l.
    - intros k p G L. cbn [list_item_u list_item]. destruct (at_ col0 p) eqn:C; cbn [negb]; [|apply agree_ok; split; [ex|congruence]].
      assert (PL : pos p < length (tokens p)).
      { unfold at_ in C. destruct (peek p) eqn:T; [|discriminate]. eapply peek_lt, T. }
      assert (IL : pos p + (if l =? 0 then 0 else 1) <= m) by (destruct (l =? 0); ex).
      rewrite uadd_ok by exact IL. cbn [bind].
      destruct (get _ p) as [t|]; [|apply agree_ok; split; [ex|congruence]].
      destruct (list_kind_of t) as [mk|]; [|apply agree_ok; split; [ex|congruence]]. cbv zeta. plain.
      set (fs := if l =? 0 then _ else _). assert (FS : 2 <= length fs) by (unfold fs; destruct (l =? 0); cbn; lia).
      assert (NE : fs <> []) by (destruct fs; [cbn in FS; lia|discriminate]).
      destruct (eat_seq_cases fs p NE) as [(q & -> & T & S & P & Q)|(q & -> & T & S & P)];
        [|apply agree_ok; split; [ex|congruence]].
      sp. eapply agree_bind; [apply with_eof_ok; [gd|cbn; ex|intros; apply paragraph_u_ok; auto]|].
      intros [u r] E. plain.
      eapply agree_bind with (P := fun x => ext r x).
      + destruct (at_eof r); cbn [negb]; [apply agree_ok; ex|]. rewrite uadd_ok by ex. cbn [bind].
        eapply agree_bind; [apply I2; [gd|ex]|]. intros [o x] (E' & _). apply agree_ok. ex.
      + intros x E'. apply agree_ok. split; [ex|]. intros _. ex.
    - intros p G L. cbn [list_inner_u list_inner]. eapply agree_bind; [apply I1; auto|]. intros [[lk|] q] (E & B).
      2:{ apply agree_ok. split; [ex|congruence]. }
      assert (B' : pos p < pos q) by (apply B; discriminate). clear B.
      same insert_op_same. eapply agree_bind; [apply I3; [gd|ex]|]. intros r E'. apply agree_ok. split; [ex|]. intros _. ex.
    - intros k p G L. cbn [list_items_u list_items]. eapply agree_bind; [apply I1; auto|]. intros [[lk|] q] (E & B).
      + clear B. eapply agree_mono; [apply I3; [gd|ex]|]. cbn beta. intros r E'. ex.
      + apply agree_ok. ex.
  Qed.
  Lemma list_u_ok : attempts (list_u m lo hi 0) (list_ 0).
  Proof.
    intros p G. unfold list_u, list_. eapply agree_bind; [apply lists_u_ok; [gd|lia]|]. intros [o q] (E & B).
    apply agree_ok. split; [ex|]. destruct o; [|discriminate]. intros _. apply B. discriminate.
  Qed.
  Lemma icon_u_ok p : good p -> agree (fun '(b, q) => ext p q) (icon_u m p) (icon p).
  Proof.
    intros G. unfold icon_u, icon. plain. seqs [is_one_bang; is_space_1] p; [|apply agree_ok; ex].
    eapply agree_bind; [apply eat_until_u_ok; gd|]. intros [[[b e]|] r] E; [|apply agree_ok; ex].
    eapply agree_mono; [apply (push_leaf_ok _ _ _ _ p _ 0); ex|]. intros [x y]. tauto.
  Qed.
  Lemma highlight_loop_u_ok f p : good p ->
    agree (fun '(b, q) => ext p q) (highlight_loop_u m lo hi f p) (highlight_loop f p).
  Proof.
    revert p. induction f as [|f IH]; intros p G; cbn [highlight_loop_u highlight_loop]; [apply agree_none, I|].
    plain. destruct (at_eof p); [apply agree_ok; ex|]. plain.
    destruct (eat_cases is_two_bangs p) as [(t & -> & _ & _ & L)| ->].
    - plain. set (p1 := set_pos _ p). assert (E1 : ext p p1) by (unfold p1; ex).
      destruct (eat_cases is_eol p1) as [(t' & -> & _ & _ & L')| ->]; sp; apply agree_ok; ex.
    - plain. eapply agree_bind_eat with (P := fun q => ext p q).
      + destruct (eat_cases is_terminator p) as [(t & -> & _ & _ & L)| ->]; [sp|]; apply agree_ok; ex.
      + intros q E. eapply agree_bind; [apply with_eofs_ok; [gd|repeat constructor|intros; apply paragraph_u_ok; auto]|].
        intros [u r] E'. destruct (pos p <? pos r); [|apply agree_none, I]. eapply agree_mono; [apply IH; gd|].
        intros [b x] E2. ex.
  Qed.
  Lemma highlight_u_ok : attempts (highlight_u m lo hi) highlight.
  Proof.
    intros p G. unfold highlight_u, highlight. plain. seqs [is_two_bangs; fun t => is_space_1 t || is_eol t] p; [|no].
    rewrite usub_ok by (fields; lia). cbn [bind]. sp. cbv zeta.
    eapply agree_bind with (P := fun '(_, r) => ext q r).
    { destruct (negb _); [eapply agree_mono; [apply modifier_u_ok; gd|]; intros [b r] E; ex|apply agree_ok; ex]. }
    intros [b r] E. eapply agree_bind; [apply with_eof_ok; [gd|exact I|apply icon_u_ok]|]. intros [b' x] E'.
    destruct (negb _); [no|]. eapply agree_bind; [apply highlight_loop_u_ok; gd|]. intros [c y] E2.
    destruct c; [|no]. apply agree_ok. split; [ex|]. intros _. ex.
  Qed.
  Lemma close_line_u_ok r p : good p -> agree (fun '(_, q) => ext p q) (close_line_u m r p) (Ok (close_line r p)).
  Proof.
    intros G. unfold close_line_u, close_line. plain. destruct (eat_cases is_eol p) as [(t & -> & _ & _ & L)| ->].
    - apply agree_ok. ex.
    - plain. destruct (at_block_boundary p); apply agree_ok; ex.
  Qed.
  Lemma embed_u_ok : attempts (embed_u m) embed.
  Proof.
    intros p G. unfold embed_u, embed. plain. destruct (eat_cases is_left_curly2 p) as [(t & -> & _ & _ & L)| ->]; [|no].
    eapply agree_bind; [apply eat_until_u_ok; gd|]. intros [[[b e]|] q] E; [|no].
    eapply agree_bind; [apply eat_until_u_ok; gd|]. intros [[[b' e']|] r] E'; [|no].
    destruct (close_line_u_ok e' r) as (-> & E2); [gd|]. cbn [bind]. destruct (close_line e' r) as [[o|] x]; [|no].
    do 5 sp. apply agree_ok. split; [ex|]. intros _. ex.
  Qed.
  Lemma eat_fence_u_ok p : good p -> eat_fence_u m p = Ok (eat_fence p).
  Proof.
    intros G. unfold eat_fence_u, eat_fence. plain. seqs [is_backtick3; is_eol] p; [reflexivity|]. apply eat_u_ok. gd.
  Qed.
  Lemma code_u_ok : attempts (code_u m) code.
  Proof.
    intros p G. unfold code_u, code. rewrite eat_fence_u_ok by gd. cbn [bind].
    destruct (eat_fence_cases p) as [(q & -> & T & S & P)|(q & -> & T & S & P)]; [|no].
    rewrite usub_ok by (fields; lia). cbn [bind]. sp. cbv zeta.
    eapply agree_bind with (P := fun '(_, r) => ext q r).
    { unfold with_no_stops. set (q0 := set_stack [] _). assert (G0 : good q0).
      { unfold q0. assert (good q) as (A1 & A2 & A3) by gd. repeat split; auto. constructor. }
      eapply agree_bind with (P := fun '(_, r) => ext q0 r).
      - eapply agree_bind with (P := fun '(_, r) => ext q0 r).
        + destruct (negb _); [apply modifier_u_ok, G0|apply agree_ok; ex].
        + intros [b r] E. eapply agree_mono; [apply eat_until_u_ok; gd|]. intros [o x] E'. ex.
      - intros [o r] E. apply agree_ok. unfold q0 in E. unfold ext in *. fields. tauto. }
    intros [[[b e]|] r] E; [|no].
    destruct (close_line_u_ok e r) as (-> & E2); [gd|]. cbn [bind]. destruct (close_line e r) as [[o|] x]; [|no].
    do 2 sp. apply agree_ok. split; [ex|]. intros _. ex.
  Qed.
  Lemma eat_collapsible_end_u_ok p : good p -> eat_collapsible_end_u m p = Ok (eat_collapsible_end p).
  Proof.
    intros G. unfold eat_collapsible_end_u, eat_collapsible_end. plain. seqs [is_collapsible_end; is_eol] p; [reflexivity|].
    apply eat_u_ok. gd.
  Qed.
  Lemma eat_ext fs p : good p -> ext p (snd (eat fs p)).
  Proof. intros G. destruct (eat_cases fs p) as [(t & -> & _ & _ & L)| ->]; ex. Qed.
  Lemma eat_collapsible_end_ext p : good p -> ext p (snd (eat_collapsible_end p)).
  Proof.
    intros G. unfold eat_collapsible_end. seqs [is_collapsible_end; is_eol] p; [ex|].
    assert (Gq : good q) by gd. pose proof (eat_ext is_collapsible_end q Gq). ex.
  Qed.
  Lemma simple_block_u_ok p : good p -> agree (fun '(_, q) => ext p q) (simple_block_u m lo hi p) (simple_block p).
  Proof.
    intros G. apply with_eof_ok; [gd|exact I|]. intros q Gq.
    eapply agree_bind; [apply (orelse_ok _ _ _ _ list_u_ok (orelse_ok _ _ _ _ images_u_ok
      (orelse_ok _ _ _ _ thematic_break_u_ok heading_u_ok))); gd|].
    intros [b r] (E & B). destruct b; [apply agree_ok; ex|]. eapply agree_mono; [apply paragraph_u_ok; gd|].
    intros [u x] E'. ex.
  Qed.
  Lemma flip_ext p i q : ext p q -> ext p (flip_to_literal i q).
  Proof.
    unfold flip_to_literal. destruct (nth_error (tokens q) i) eqn:T; auto. intros E.
    assert (L : i < length (tokens q)) by (apply nth_error_Some; congruence).
    unfold ext in *. fields. rewrite app_length, firstn_length. cbn [length]. rewrite skipn_length. intuition lia.
  Qed.
  Lemma docs_u_ok f :
    (forall p, good p -> agree (fun q => ext p q) (document_u m lo hi f p) (document f p)) /\
    (forall p, good p -> agree (fun q => ext p q) (document_loop_u m lo hi f p) (document_loop f p)) /\
    attempts (collapsible_u m lo hi f) (collapsible f).
  Proof.
    induction f as [|f (I1 & I2 & I3)]; [repeat split; intros; apply agree_none, I|].
    split; [|split]; intros p G.
    - cbn [document_u document]. eapply agree_bind; [apply I2; gd|]. cbn beta. intros q E. apply agree_ok. ex.
    - cbn [document_loop_u document_loop]. plain. destruct (at_eof p); [apply agree_ok; ex|]. plain.
      eapply agree_bind_eat with (P := fun q => ext p q).
      + destruct (eat_cases is_terminator p) as [(t & -> & _ & _ & L)| ->]; [sp; apply agree_ok; ex|].
        eapply agree_bind; [apply (orelse_ok _ _ _ _ code_u_ok (orelse_ok _ _ _ _ I3 (orelse_ok _ _ _ _ embed_u_ok highlight_u_ok))); gd|].
        intros [b q] (E & B). destruct b; [apply agree_ok; ex|].
        eapply agree_bind; [apply simple_block_u_ok; gd|]. intros [u r] E'. apply agree_ok. ex.
      + intros q E. destruct (pos p <? pos q); [|apply agree_none, I]. eapply agree_mono; [apply I2; gd|]. cbn beta. intros r E'. ex.
    - cbn [collapsible_u collapsible]. plain. seqs [is_collapsible_start; is_space_or_eol] p; [|no].
      sp. cbv zeta. eapply agree_bind; [apply modifier_u_ok; gd|]. intros [b r] E.
      destruct (negb _); [apply agree_ok; split; [apply flip_ext; ex|discriminate]|].
      eapply agree_bind; [apply with_eof_ok; [gd|exact I|]|].
      + intros x Gx. eapply agree_bind; [apply I1, Gx|]. cbn beta. intros y E'. apply agree_ok. ex.
      + intros [u x] E'. plain. assert (Gx : good x) by gd. pose proof (eat_ext is_eol x Gx) as EE.
        destruct (eat is_eol x) as [o y]. cbn [snd] in *. assert (Gy : good y) by gd.
        rewrite eat_collapsible_end_u_ok by gd. cbn [bind]. pose proof (eat_collapsible_end_ext y Gy) as EC.
        destruct (eat_collapsible_end y) as [[e|] z]; cbn [snd] in *.
        * sp. apply agree_ok. split; [ex|]. intros _. ex.
        * apply agree_ok. split; [apply flip_ext; ex|discriminate].
  Qed.
  Lemma parse_u_ok s : byte_len s <= m -> length s <= n -> parse_u m lo hi s = parse s.
  Proof.
    intros B C. unfold parse_u, parse, parser_from_u, parser_from. rewrite lex_m_ok by exact B.
    destruct (iterator_protocol s) as (ts & -> & L & _). cbn [bind].
    assert (G : good (mk_parser s ts 0 [] [])).
    { pose proof (length_byte_len s). repeat split; cbn; try lia. constructor. }
    pose proof (agree_bind (fun '(_, q) => ext (mk_parser s ts 0 [] []) q) (fun _ : list op => True)
      (metadata_u m (mk_parser s ts 0 [] [])) (metadata (mk_parser s ts 0 [] []))) as A.
    apply A; clear A.
    - eapply agree_mono; [apply delimited_u_ok, G|]. intros [b q] (E & _). exact E.
    - intros [b q] E. eapply agree_bind; [apply docs_u_ok; gd|]. intros r _. apply agree_ok, I.
  Qed.
End Proofs.
