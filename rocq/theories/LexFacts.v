(** Properties of the token list, proved on the lexical grammar. *)
From Verif Require Import Base Lexer LexSpec LexProofs.

(** ** Specification vocabulary (independent of the lexer) *)

(** [n] is a character boundary of [s]. *)
Definition boundary (s : str) (n : nat) : Prop := exists a b, s = a ++ b /\ byte_len a = n.

(** Text of a token. *)
Definition token_text (s : str) (t : token) : outcome str := slice s (t_start t) (t_end t).

(** Removing escaping backslashes, left to right. *)
Fixpoint unescape (s : str) : str :=
  match s with
  | [] => []
  | c :: s' =>
      if char_eqb c c_bslash
      then match s' with [] => [] | d :: s2 => d :: unescape s2 end
      else c :: unescape s'
  end.

(** Does [s] end with a backslash that escapes what follows? *)
Fixpoint dangling (s : str) : bool :=
  match s with
  | [] => false
  | c :: s' =>
      if char_eqb c c_bslash
      then match s' with [] => true | _ :: s2 => dangling s2 end
      else dangling s'
  end.

(** Row and column reached after [s]; escaping backslashes do not count and an escaped line
    feed is an ordinary character. *)
Fixpoint line_col (r col : nat) (s : str) : nat * nat :=
  match s with
  | [] => (r, col)
  | c :: s' =>
      if char_eqb c c_bslash
      then match s' with [] => (r, col) | _ :: s2 => line_col r (col + 1) s2 end
      else if char_eqb c c_nl then line_col (r + 1) 0 s'
      else line_col r (col + 1) s'
  end.

(** Characters that never continue a literal. *)
Definition special (c : char) : bool :=
  existsb (char_eqb c)
    [c_nl; c_bslash; c_tilde; c_star; c_rcurly; c_lcurly; c_minus; c_hash; c_gt; c_bang;
     c_backtick; c_plus; c_lsquare; c_rsquare; c_lparen; c_rparen; c_underscore; c_pipe].

Definition line_ending (s : str) : Prop := s = [c_nl] \/ s = [c_cr; c_nl].

(** The documented text of each kind (src/lexer/token.rs 8-53). *)
Definition kind_text (k : token_kind) (esc : bool) (txt : str) : Prop :=
  let run c := exists n, txt = repeat c (S n) in
  match k with
  | Terminator => exists a b, txt = a ++ b /\ line_ending a /\ line_ending b
  | Eol => line_ending txt
  | LeftCurlyBrace => run c_lcurly
  | RightCurlyBrace => run c_rcurly
  | CollapsibleStart => txt = [c_lcurly; c_percent]
  | CollapsibleEnd => txt = [c_percent; c_rcurly]
  | Tilde => run c_tilde
  | Star => run c_star
  | Space => run c_space
  | Minus => run c_minus
  | Hash => run c_hash
  | GreaterThan => run c_gt
  | Bang => run c_bang
  | Backtick => run c_backtick
  | Plus => run c_plus
  | LeftSquareBracket => txt = [c_lsquare]
  | RightSquareBracket => txt = [c_rsquare]
  | LeftParenthesis => txt = [c_lparen]
  | RightParenthesis => txt = [c_rparen]
  | Underscore => txt = [c_underscore]
  | Pipe => txt = [c_pipe]
  | Literal =>
      exists c a, txt = c :: a /\ Forall (fun d => special d = false) a
                  /\ (esc = false -> special c = false /\ c <> c_space)
  end.

(** Kinds made of one or more equal characters. *)
Definition is_run_kind (k : token_kind) : bool :=
  match k with
  | LeftCurlyBrace | RightCurlyBrace | Tilde | Star | Space | Minus | Hash | GreaterThan | Bang
  | Backtick | Plus => true
  | _ => false
  end.

(** ** Slices *)

Lemma split_bytes_app : forall a b, split_bytes (a ++ b) (byte_len a) = Some (a, b).
Proof.
  induction a as [|c a IH]; intros b; simpl.
  - destruct b; reflexivity.
  - pose proof (utf8_len_pos c). destruct (utf8_len c + byte_len a) eqn:E; [lia|]. rewrite <- E.
    replace (utf8_len c <=? utf8_len c + byte_len a) with true by (symmetry; apply Nat.leb_le; lia).
    replace (utf8_len c + byte_len a - utf8_len c) with (byte_len a) by lia.
    rewrite IH. reflexivity.
Qed.

Lemma slice_app : forall x y z, slice (x ++ y ++ z) (byte_len x) (byte_len x + byte_len y) = Ok y.
Proof.
  intros. unfold slice.
  replace (byte_len x <=? byte_len x + byte_len y) with true by (symmetry; apply Nat.leb_le; lia).
  rewrite split_bytes_app. replace (byte_len x + byte_len y - byte_len x) with (byte_len y) by lia.
  rewrite split_bytes_app. reflexivity.
Qed.

(** ** Pieces *)

Lemma special_stops : forall c s, stops_literal c s = false -> special c = false.
Proof.
  intros c s H. unfold stops_literal in H.
  apply orb_false_iff in H. destruct H as [H H1].
  apply orb_false_iff in H. destruct H as [H H2].
  apply orb_false_iff in H. destruct H as [H H3].
  unfold special. cbn [existsb].
  rewrite H3.
  replace (char_eqb c c_nl) with false.
  2:{ unfold pair_kind in H. destruct (char_eqb c c_nl); [discriminate|reflexivity]. }
  unfold single_kind in H1.
  destruct (char_eqb c c_lsquare); [discriminate|]. destruct (char_eqb c c_rsquare); [discriminate|].
  destruct (char_eqb c c_lparen); [discriminate|]. destruct (char_eqb c c_rparen); [discriminate|].
  destruct (char_eqb c c_underscore); [discriminate|]. destruct (char_eqb c c_pipe); [discriminate|].
  unfold run_kind in H2.
  destruct (char_eqb c c_tilde) eqn:E1; [apply char_eqb_eq in E1; subst c; discriminate|].
  destruct (char_eqb c c_star) eqn:E2; [apply char_eqb_eq in E2; subst c; discriminate|].
  destruct (char_eqb c c_rcurly) eqn:E3; [apply char_eqb_eq in E3; subst c; discriminate|].
  destruct (char_eqb c c_lcurly) eqn:E4; [apply char_eqb_eq in E4; subst c; discriminate|].
  destruct (char_eqb c c_space) eqn:E5; [apply char_eqb_eq in E5; subst c; reflexivity|].
  destruct (char_eqb c c_minus); [discriminate|]. destruct (char_eqb c c_hash); [discriminate|].
  destruct (char_eqb c c_gt); [discriminate|]. destruct (char_eqb c c_bang); [discriminate|].
  destruct (char_eqb c c_backtick); [discriminate|]. destruct (char_eqb c c_plus); [discriminate|].
  reflexivity.
Qed.

Lemma lit_run_special : forall s a b, lit_run s = (a, b) -> Forall (fun d => special d = false) a.
Proof.
  induction s as [|c s IH]; simpl; intros a b H.
  - injection H as <- <-; constructor.
  - destruct (stops_literal c s) eqn:E.
    + injection H as <- <-; constructor.
    + destruct (lit_run s) as [a' b']. injection H as <- <-. constructor.
      * eapply special_stops; exact E.
      * eapply IH; reflexivity.
Qed.

Lemma char_run_repeat : forall c s a b, char_run c s = (a, b) -> a = repeat c (length a).
Proof.
  induction s as [|d s IH]; simpl; intros a b H.
  - injection H as <- <-; reflexivity.
  - destruct (char_eqb d c) eqn:E.
    + destruct (char_run c s) as [a' b']. injection H as <- <-. apply char_eqb_eq in E; subst d.
      simpl. f_equal. eapply IH; reflexivity.
    + injection H as <- <-; reflexivity.
Qed.

Definition piece_ok (p : piece) : Prop :=
  kind_text (p_kind p) (p_esc p) (p_text p) /\ (p_esc p = true -> p_kind p = Literal).

Lemma pair_kind_text : forall c s k t, pair_kind c s = Some (k, t) -> kind_text k false t.
Proof.
  unfold pair_kind; intros c s k t H.
  destruct (char_eqb c c_nl) eqn:E.
  - injection H as <- <-. apply char_eqb_eq in E; subst c. left; reflexivity.
  - destruct s as [|d s]; [discriminate|].
    destruct (char_eqb c c_cr && char_eqb d c_nl) eqn:E1.
    + injection H as <- <-. apply andb_true_iff in E1. destruct E1 as [E1 E2].
      apply char_eqb_eq in E1, E2; subst. right; reflexivity.
    + destruct (char_eqb c c_lcurly && char_eqb d c_percent) eqn:E2.
      * injection H as <- <-. apply andb_true_iff in E2. destruct E2 as [E2 E3].
        apply char_eqb_eq in E2, E3; subst. reflexivity.
      * destruct (char_eqb c c_percent && char_eqb d c_rcurly) eqn:E3; [|discriminate].
        injection H as <- <-. apply andb_true_iff in E3. destruct E3 as [E3 E4].
        apply char_eqb_eq in E3, E4; subst. reflexivity.
Qed.

Lemma run_kind_text : forall c k n esc, run_kind c = Some k -> kind_text k esc (repeat c (S n)).
Proof.
  intros c k n esc H. unfold run_kind in H.
  repeat match type of H with
  | (if char_eqb c ?d then _ else _) = _ =>
      destruct (char_eqb c d) eqn:?; [char_cases; injection H as <-; exists n; reflexivity|]
  end. discriminate.
Qed.

Lemma single_kind_text : forall c k esc, single_kind c = Some k -> kind_text k esc [c].
Proof.
  intros c k esc H. unfold single_kind in H.
  repeat match type of H with
  | (if char_eqb c ?d then _ else _) = _ =>
      destruct (char_eqb c d) eqn:?; [char_cases; injection H as <-; reflexivity|]
  end. discriminate.
Qed.

Lemma scan_one_ok : forall s p r, scan_one s = Some (p, r) -> piece_ok p.
Proof.
  unfold scan_one; intros s p r H.
  destruct s as [|c s]; [discriminate|].
  destruct (pair_kind c s) as [[k t]|] eqn:E.
  - injection H as <- <-. split; simpl; [|discriminate]. eapply pair_kind_text; exact E.
  - destruct (char_eqb c c_bslash) eqn:E1.
    + destruct s as [|d s]; [discriminate|]. destruct (lit_run s) as [a b] eqn:E2.
      injection H as <- <-. split; simpl; [|reflexivity].
      exists d, a. split; [reflexivity|split; [eapply lit_run_special; exact E2|discriminate]].
    + destruct (run_kind c) eqn:E2.
      * destruct (char_run c s) as [a b] eqn:E3. injection H as <- <-. split; simpl; [|discriminate].
        rewrite (char_run_repeat _ _ _ _ E3). exact (run_kind_text c t (length a) false E2).
      * destruct (single_kind c) eqn:E3.
        -- injection H as <- <-. split; simpl; [|discriminate]. apply single_kind_text; exact E3.
        -- destruct (lit_run s) as [a b] eqn:E4. injection H as <- <-. split; simpl; [|discriminate].
           exists c, a. split; [reflexivity|split; [eapply lit_run_special; exact E4|intros _]].
           split.
           ++ apply (special_stops c s). unfold stops_literal. rewrite E, E1, E2, E3. reflexivity.
           ++ intro; subst c. discriminate.
Qed.

Lemma raw_all_ok : forall s, Forall piece_ok (raw_pieces s).
Proof.
  apply raw_ind; intros; rewrite raw_unfold, H; constructor; auto. eapply scan_one_ok; exact H.
Qed.

(** Induction along [merge]. *)
Lemma merge_ind : forall P : list piece -> list piece -> Prop,
  P [] [] ->
  (forall p, P [p] [p]) ->
  (forall p q l, p_kind p = Eol -> p_kind q = Eol -> P l (merge l) ->
     P (p :: q :: l) (mk_piece Terminator (p_text p ++ p_text q) false :: merge l)) ->
  (forall p q l, (p_kind p <> Eol \/ p_kind q <> Eol) -> P (q :: l) (merge (q :: l)) ->
     P (p :: q :: l) (p :: merge (q :: l))) ->
  forall l, P l (merge l).
Proof.
  intros P H0 H1 H2 H3 l. remember (length l) as n eqn:Hn. assert (Hle : length l <= n) by lia. clear Hn.
  revert l Hle. induction n; intros l Hle.
  - destruct l; [exact H0|simpl in Hle; lia].
  - destruct l as [|p [|q l2]]; [exact H0|apply H1|]. cbn [merge].
    destruct (kind_eqb (p_kind p) Eol && kind_eqb (p_kind q) Eol) eqn:E.
    + apply andb_true_iff in E. destruct E as [E1 E2]. apply kind_eqb_eq in E1, E2.
      apply H2; auto. apply IHn. simpl in Hle; lia.
    + apply H3; [|apply IHn; simpl in *; lia].
      apply andb_false_iff in E. destruct E as [E|E]; apply kind_eqb_neq in E; auto.
Qed.

Lemma merge_ok : forall l, Forall piece_ok l -> Forall piece_ok (merge l).
Proof.
  apply (merge_ind (fun l m => Forall piece_ok l -> Forall piece_ok m)); auto.
  - intros p q l K1 K2 IH F. inversion F as [|? ? P1 F1]; subst. inversion F1 as [|? ? P2 F2]; subst.
    constructor; auto. destruct P1 as [P1 _], P2 as [P2 _]. rewrite K1 in P1. rewrite K2 in P2.
    split; simpl; [|discriminate]. exists (p_text p), (p_text q). auto.
  - intros p q l K IH F. inversion F; subst. constructor; auto.
Qed.

Lemma pieces_ok : forall s, Forall piece_ok (pieces s).
Proof. intros; apply merge_ok, raw_all_ok. Qed.

Lemma merge_src : forall l, Forall piece_ok l -> flat_map p_src (merge l) = flat_map p_src l.
Proof.
  apply (merge_ind (fun l m => Forall piece_ok l -> flat_map p_src m = flat_map p_src l)); auto.
  - intros p q l K1 K2 IH F. inversion F as [|? ? P1 F1]; subst. inversion F1 as [|? ? P2 F2]; subst.
    cbn [flat_map]. rewrite IH by assumption. unfold p_src at 1. cbn [p_esc p_text].
    unfold p_src at 2 3.
    destruct (p_esc p) eqn:X1; [destruct P1 as [_ P1]; rewrite (P1 X1) in K1; discriminate|].
    destruct (p_esc q) eqn:X2; [destruct P2 as [_ P2]; rewrite (P2 X2) in K2; discriminate|].
    simpl. rewrite <- app_assoc. reflexivity.
  - intros p q l K IH F. inversion F; subst. cbn [flat_map] in *. rewrite IH by assumption. reflexivity.
Qed.

Lemma raw_src : forall s, exists tl, s = flat_map p_src (raw_pieces s) ++ tl /\ (tl = [] \/ tl = [c_bslash]).
Proof.
  apply raw_ind.
  - intros s H. rewrite raw_unfold, H. exists s. split; [reflexivity|].
    unfold scan_one in H. destruct s as [|c s]; [auto|].
    destruct (pair_kind c s) as [[]|]; [discriminate|].
    destruct (char_eqb c c_bslash) eqn:E.
    + apply char_eqb_eq in E; subst c. destruct s; [auto|]. destruct (lit_run s); discriminate.
    + destruct (run_kind c); [destruct (char_run c s); discriminate|].
      destruct (single_kind c); [discriminate|destruct (lit_run s); discriminate].
  - intros s p r H (tl & IH1 & IH2). rewrite raw_unfold, H. exists tl.
    cbn [flat_map]. rewrite <- app_assoc, <- IH1. split; [|exact IH2].
    eapply scan_one_app; exact H.
Qed.

Lemma pieces_src : forall s, exists tl, s = flat_map p_src (pieces s) ++ tl /\ (tl = [] \/ tl = [c_bslash]).
Proof. intros s. unfold pieces. rewrite merge_src by apply raw_all_ok. apply raw_src. Qed.

(** ** From pieces to tokens *)

Lemma byte_len_src : forall p, byte_len (p_src p) = (if p_esc p then 1 else 0) + byte_len (p_text p).
Proof. intros p. unfold p_src. rewrite byte_len_app. destruct (p_esc p); reflexivity. Qed.

Definition col_after (col : nat) (p : piece) : nat :=
  if kind_rows (p_kind p) =? 0 then col + length (p_text p) else 0.

Lemma annotate_app : forall a b o col r, exists o' col' r',
  annotate o col r (a ++ b) = annotate o col r a ++ annotate o' col' r' b
  /\ o' = o + byte_len (flat_map p_src a)
  /\ r' = fold_left (fun r p => r + kind_rows (p_kind p)) a r
  /\ col' = fold_left col_after a col.
Proof.
  induction a as [|p a IH]; intros b o col r; simpl.
  - exists o, col, r. rewrite Nat.add_0_r. auto.
  - destruct (IH b (o + (if p_esc p then 1 else 0) + byte_len (p_text p)) (col_after col p)
                (r + kind_rows (p_kind p))) as (o' & col' & r' & H1 & H2 & H3 & H4).
    exists o', col', r'. fold (col_after col p). rewrite H1. split; [reflexivity|]. split; [|auto].
    rewrite H2, byte_len_app, byte_len_src. lia.
Qed.

(** The tokens are the pieces, at the offsets where their text stands. *)
Lemma annotate_nth : forall ps o col r i t, nth_error (annotate o col r ps) i = Some t ->
  exists pre p post, ps = pre ++ p :: post /\ length pre = i
  /\ kind t = p_kind p /\ escaped t = p_esc p
  /\ t_start t = o + byte_len (flat_map p_src pre) + (if p_esc p then 1 else 0)
  /\ t_end t = t_start t + byte_len (p_text p)
  /\ byte_index (t_pos t) = t_start t
  /\ row (t_pos t) = fold_left (fun r p => r + kind_rows (p_kind p)) pre r
  /\ column (t_pos t) = fold_left col_after pre col.
Proof.
  induction ps as [|p ps IH]; intros o col r i t H; simpl in H.
  - destruct i; discriminate.
  - destruct i as [|i]; simpl in H.
    + injection H as <-. exists [], p, ps. simpl. rewrite Nat.add_0_r. repeat split; auto.
    + apply IH in H. destruct H as (pre & q & post & H1 & H2 & H3 & H4 & H5 & H6 & H7 & H8 & H9).
      exists (p :: pre), q, post. subst ps. simpl. rewrite H2.
      repeat (split; [solve [auto]|]). split.
      * rewrite H5, byte_len_app, byte_len_src. lia.
      * auto.
Qed.

Lemma kind_text_nonempty : forall k e t, kind_text k e t -> t <> [].
Proof.
  intros k e t H; destruct k; simpl in H; try (subst t; discriminate);
    try (destruct H as [n ->]; discriminate).
  - destruct H as (a & b & -> & [->| ->] & _); discriminate.
  - destruct H as [->| ->]; discriminate.
  - destruct H as (c & a & -> & _); discriminate.
Qed.

(** Everything about token [i] of the input [s] in one place. *)
Lemma token_facts : forall s ts i t, lex s = Ok ts -> nth_error ts i = Some t ->
  exists pre p post tl,
    pieces s = pre ++ p :: post /\ length pre = i
    /\ s = flat_map p_src pre ++ p_src p ++ flat_map p_src post ++ tl
    /\ (tl = [] \/ tl = [c_bslash])
    /\ piece_ok p
    /\ kind t = p_kind p /\ escaped t = p_esc p
    /\ t_start t = byte_len (flat_map p_src pre) + (if p_esc p then 1 else 0)
    /\ t_end t = t_start t + byte_len (p_text p)
    /\ byte_index (t_pos t) = t_start t
    /\ row (t_pos t) = fold_left (fun r p => r + kind_rows (p_kind p)) pre 0
    /\ column (t_pos t) = fold_left col_after pre 0.
Proof.
  intros s ts i t H Hi. rewrite lex_correct in H. injection H as <-.
  unfold spec_tokens in Hi. apply annotate_nth in Hi.
  destruct Hi as (pre & p & post & H1 & H2 & H3 & H4 & H5 & H6 & H7 & H8 & H9).
  destruct (pieces_src s) as (tl & S1 & S2).
  exists pre, p, post, tl. split; [exact H1|]. split; [exact H2|]. split.
  { rewrite S1, H1 at 1. rewrite flat_map_app. cbn [flat_map]. rewrite <- !app_assoc. reflexivity. }
  split; [exact S2|]. split.
  { pose proof (pieces_ok s) as F. rewrite H1 in F. apply Forall_elt in F. exact F. }
  simpl in H5. repeat (split; [solve [auto]|]). auto.
Qed.

(** ** C02 *)
Lemma lexer_ranges : forall s ts, lex s = Ok ts ->
  (forall t, In t ts ->
     t_start t < t_end t /\ boundary s (t_start t) /\ boundary s (t_end t)
     /\ t_end t <= byte_len s /\ byte_index (t_pos t) = t_start t)
  /\ (forall i j t u, i < j -> nth_error ts i = Some t -> nth_error ts j = Some u ->
        t_end t <= t_start u).
Proof.
  intros s ts H. split.
  - intros t Ht. apply In_nth_error in Ht. destruct Ht as [i Ht].
    destruct (token_facts s ts i t H Ht) as (pre & p & post & tl & H1 & H2 & H3 & H4 & [H5 _] & H6 & H7 & H8 & H9 & H10 & _).
    pose proof (kind_text_nonempty _ _ _ H5) as NE.
    split; [|split; [|split; [|split]]].
    + rewrite H9. destruct (p_text p) as [|c x]; [congruence|]. simpl. pose proof (utf8_len_pos c). lia.
    + unfold p_src in H3 at 2.
      exists (flat_map p_src pre ++ if p_esc p then [c_bslash] else []), (p_text p ++ flat_map p_src post ++ tl).
      split; [rewrite H3 at 1; rewrite <- !app_assoc; reflexivity|]. rewrite byte_len_app, H8.
      destruct (p_esc p); simpl; lia.
    + exists (flat_map p_src pre ++ p_src p), (flat_map p_src post ++ tl).
      split; [rewrite H3 at 1; rewrite <- !app_assoc; reflexivity|]. rewrite byte_len_app, H9, H8, byte_len_src. lia.
    + rewrite H3 at 1. rewrite !byte_len_app. rewrite H9, H8, byte_len_src. lia.
    + exact H10.
  - intros i j t u Hij Hi Hj.
    destruct (token_facts s ts i t H Hi) as (pre & p & post & tl & A1 & A2 & _ & _ & _ & _ & _ & A8 & A9 & _).
    destruct (token_facts s ts j u H Hj) as (pre' & p' & post' & tl' & B1 & B2 & _ & _ & _ & _ & _ & B8 & B9 & _).
    assert (X : exists m, pre' = pre ++ p :: m).
    { rewrite A1 in B1. clear - A2 B2 Hij B1. subst i j. revert pre' Hij B1.
      induction pre as [|x pre IH]; intros pre' Hij B1; destruct pre' as [|y pre']; simpl in *; try lia.
      - injection B1 as -> B1. exists pre'; reflexivity.
      - injection B1 as -> B1. destruct (IH pre') as [m ->]; [lia|exact B1|]. exists m; reflexivity. }
    destruct X as [m ->]. rewrite flat_map_app in B8. cbn [flat_map] in B8. rewrite !byte_len_app, byte_len_src in B8.
    rewrite A9, A8, B8. lia.
Qed.

(** ** C03 *)

Lemma token_text_piece : forall s ts i t, lex s = Ok ts -> nth_error ts i = Some t ->
  exists p, nth_error (pieces s) i = Some p /\ token_text s t = Ok (p_text p)
            /\ kind t = p_kind p /\ escaped t = p_esc p.
Proof.
  intros s ts i t H Hi.
  destruct (token_facts s ts i t H Hi) as (pre & p & post & tl & H1 & H2 & H3 & H4 & [H5 _] & H6 & H7 & H8 & H9 & _).
  exists p. split.
  { rewrite H1, nth_error_app2 by lia. rewrite <- H2, Nat.sub_diag. reflexivity. }
  split; [|auto].
  unfold token_text. rewrite H9, H8. rewrite H3 at 1. unfold p_src at 2.
  replace (flat_map p_src pre ++ ((if p_esc p then [c_bslash] else []) ++ p_text p) ++ flat_map p_src post ++ tl)
    with ((flat_map p_src pre ++ (if p_esc p then [c_bslash] else [])) ++ p_text p ++ flat_map p_src post ++ tl)
    by (rewrite <- !app_assoc; reflexivity).
  replace (byte_len (flat_map p_src pre) + (if p_esc p then 1 else 0))
    with (byte_len (flat_map p_src pre ++ (if p_esc p then [c_bslash] else [])))
    by (rewrite byte_len_app; destruct (p_esc p); reflexivity).
  apply slice_app.
Qed.

(** Pieces do not contain escaping backslashes. *)
Lemma unescape_plain : forall a s, Forall (fun d => special d = false) a -> unescape (a ++ s) = a ++ unescape s.
Proof.
  induction a as [|c a IH]; intros s F; [reflexivity|]. inversion F as [|? ? P F']; subst. simpl.
  replace (char_eqb c c_bslash) with false.
  2:{ unfold special in P. cbn [existsb] in P. apply orb_false_iff in P. destruct P as [_ P].
      apply orb_false_iff in P. destruct P as [P _]. auto. }
  rewrite IH by assumption. reflexivity.
Qed.

Lemma dangling_plain : forall a s, Forall (fun d => special d = false) a -> dangling (a ++ s) = dangling s.
Proof.
  induction a as [|c a IH]; intros s F; [reflexivity|]. inversion F as [|? ? P F']; subst. simpl.
  replace (char_eqb c c_bslash) with false.
  2:{ unfold special in P. cbn [existsb] in P. apply orb_false_iff in P. destruct P as [_ P].
      apply orb_false_iff in P. destruct P as [P _]. auto. }
  rewrite IH by assumption. reflexivity.
Qed.

Lemma line_col_plain : forall a s r col, Forall (fun d => special d = false) a ->
  line_col r col (a ++ s) = line_col r (col + length a) s.
Proof.
  induction a as [|c a IH]; intros s r col F; simpl; [rewrite Nat.add_0_r; reflexivity|].
  inversion F as [|? ? P F']; subst.
  unfold special in P. cbn [existsb] in P. apply orb_false_iff in P. destruct P as [P0 P].
  apply orb_false_iff in P. destruct P as [P _]. rewrite P, P0.
  rewrite IH by assumption. f_equal. lia.
Qed.

(** A piece without backslash and line feed. *)
Definition no_bslash (t : str) : Prop := Forall (fun c => char_eqb c c_bslash = false) t.

Lemma kind_text_no_bslash : forall k t, kind_text k false t -> no_bslash t.
Proof.
  intros k t H. unfold no_bslash.
  assert (R : forall c n, char_eqb c c_bslash = false -> Forall (fun d => char_eqb d c_bslash = false) (repeat c (S n))).
  { intros c n E. apply Forall_forall. intros x Hx. apply repeat_spec in Hx. subst; exact E. }
  destruct k; simpl in H; try (subst t; repeat constructor);
    try (destruct H as [n ->]; apply R; reflexivity).
  - destruct H as (a & b & -> & [->| ->] & [->| ->]); repeat constructor.
  - destruct H as [->| ->]; repeat constructor.
  - destruct H as (c & a & -> & F & G). destruct (G eq_refl) as [G1 _].
    assert (Q : forall d, special d = false -> char_eqb d c_bslash = false).
    { intros d P. unfold special in P. cbn [existsb] in P. apply orb_false_iff in P. destruct P as [_ P].
      apply orb_false_iff in P. destruct P as [P _]. exact P. }
    constructor; [auto|]. eapply Forall_impl; [|exact F]. auto.
Qed.

Lemma unescape_no_bslash : forall a s, no_bslash a -> unescape (a ++ s) = a ++ unescape s.
Proof.
  induction a as [|c a IH]; intros s F; [reflexivity|]. inversion F as [|? ? P F']; subst. simpl.
  rewrite P, IH by assumption. reflexivity.
Qed.
Lemma dangling_no_bslash : forall a s, no_bslash a -> dangling (a ++ s) = dangling s.
Proof.
  induction a as [|c a IH]; intros s F; [reflexivity|]. inversion F as [|? ? P F']; subst. simpl.
  rewrite P, IH by assumption. reflexivity.
Qed.

Lemma unescape_piece : forall p s, piece_ok p -> unescape (p_src p ++ s) = p_text p ++ unescape s.
Proof.
  intros p s [H1 H2]. unfold p_src. destruct (p_esc p) eqn:E.
  - rewrite (H2 eq_refl) in H1. destruct H1 as (c & a & -> & F & _).
    change (unescape (([c_bslash] ++ c :: a) ++ s)) with (c :: unescape (a ++ s)).
    rewrite unescape_plain by exact F. reflexivity.
  - simpl. apply unescape_no_bslash. eapply kind_text_no_bslash; exact H1.
Qed.

Lemma dangling_piece : forall p s, piece_ok p -> dangling (p_src p ++ s) = dangling s.
Proof.
  intros p s [H1 H2]. unfold p_src. destruct (p_esc p) eqn:E.
  - rewrite (H2 eq_refl) in H1. destruct H1 as (c & a & -> & F & _).
    change (dangling (([c_bslash] ++ c :: a) ++ s)) with (dangling (a ++ s)).
    apply dangling_plain. exact F.
  - simpl. apply dangling_no_bslash. eapply kind_text_no_bslash; exact H1.
Qed.

Lemma unescape_pieces : forall ps s, Forall piece_ok ps ->
  unescape (flat_map p_src ps ++ s) = flat_map p_text ps ++ unescape s.
Proof.
  induction ps as [|p ps IH]; intros s F; [reflexivity|]. inversion F; subst. cbn [flat_map].
  rewrite <- !app_assoc, unescape_piece, IH by assumption. reflexivity.
Qed.

Lemma dangling_pieces : forall ps s, Forall piece_ok ps ->
  dangling (flat_map p_src ps ++ s) = dangling s.
Proof.
  induction ps as [|p ps IH]; intros s F; [reflexivity|]. inversion F; subst. cbn [flat_map].
  rewrite <- app_assoc, dangling_piece, IH by assumption. reflexivity.
Qed.

Fixpoint concat_texts (s : str) (ts : list token) : outcome str :=
  match ts with
  | [] => Ok []
  | t :: ts' => let! a := token_text s t in let! b := concat_texts s ts' in Ok (a ++ b)
  end.

Lemma concat_texts_nth : forall s ts ps,
  length ts = length ps ->
  (forall i t, nth_error ts i = Some t ->
     exists p, nth_error ps i = Some p /\ token_text s t = Ok (p_text p)) ->
  concat_texts s ts = Ok (flat_map p_text ps).
Proof.
  intros s; induction ts as [|t ts IH]; intros ps L H; destruct ps as [|p ps]; try discriminate.
  - reflexivity.
  - simpl. destruct (H 0 t eq_refl) as (p' & E1 & E2). simpl in E1. injection E1 as <-.
    rewrite E2. simpl. rewrite (IH ps); [reflexivity|simpl in L; lia|].
    intros i u Hu. exact (H (S i) u Hu).
Qed.

Lemma lexer_text : forall s ts, lex s = Ok ts -> concat_texts s ts = Ok (unescape s).
Proof.
  intros s ts H. rewrite (concat_texts_nth s ts (pieces s)).
  - destruct (pieces_src s) as (tl & S1 & S2). rewrite S1 at 2.
    rewrite unescape_pieces by apply pieces_ok.
    destruct S2 as [->| ->]; simpl; rewrite app_nil_r; reflexivity.
  - rewrite lex_correct in H. injection H as <-. unfold spec_tokens. rewrite annotate_length. reflexivity.
  - intros i t Hi. destruct (token_text_piece s ts i t H Hi) as (p & A & B & _). exists p; auto.
Qed.

(** ** C04 *)

(** A decomposition of the text at an escaping backslash falls on a piece boundary. *)
Lemma escape_boundary : forall ps tl a c b,
  Forall piece_ok ps -> (tl = [] \/ tl = [c_bslash]) ->
  flat_map p_src ps ++ tl = a ++ c_bslash :: c :: b -> dangling a = false ->
  exists pre p post, ps = pre ++ p :: post /\ flat_map p_src pre = a
    /\ p_esc p = true /\ exists x, p_text p = c :: x.
Proof.
  intros ps tl a c b. remember (length a) as n eqn:Hn. assert (Hle : length a <= n) by lia. clear Hn.
  revert a ps Hle. induction n; intros a ps Hle F T H D.
  - destruct a; [|simpl in Hle; lia]. destruct ps as [|p ps].
    + simpl in H. destruct T as [->| ->]; discriminate.
    + inversion F as [|? ? [P1 P2] F']; subst.
      exists [], p, ps. split; [reflexivity|]. split; [reflexivity|].
      cbn [flat_map] in H. unfold p_src at 1 in H. destruct (p_esc p) eqn:E.
      * split; [reflexivity|]. rewrite (P2 eq_refl) in P1. destruct P1 as (d & x & E1 & _).
        rewrite E1 in *. simpl in H. injection H as -> _. exists x; reflexivity.
      * apply kind_text_no_bslash in P1 as NB. apply kind_text_nonempty in P1 as NE.
        destruct (p_text p) as [|d x]; [congruence|]. simpl in H. injection H as -> _.
        inversion NB; subst. discriminate.
  - destruct ps as [|p ps].
    { simpl in H. destruct T as [->| ->].
      - destruct a; discriminate.
      - destruct a as [|? [|? ?]]; discriminate. }
    inversion F as [|? ? P F']; subst.
    cbn [flat_map] in H. rewrite <- app_assoc in H.
    (* compare p_src p with a *)
    assert (X : (exists a', a = p_src p ++ a') \/ (exists y z, p_src p = a ++ c_bslash :: y /\ z = y)).
    { clear - H. revert H. generalize (flat_map p_src ps ++ tl). generalize (p_src p).
      induction a as [|d a IH]; intros q rest H.
      - destruct q as [|e q]; [left; exists []; reflexivity|]. simpl in H. injection H as -> _.
        right; exists q, q; auto.
      - destruct q as [|e q]; [left; exists (d :: a); reflexivity|]. simpl in H. injection H as -> H.
        destruct (IH q rest H) as [[a' ->]|(y & z & -> & ->)].
        + left; exists a'; reflexivity.
        + right; exists y, y; auto. }
    destruct X as [[a' ->]|(y & z & E & _)].
    + rewrite <- app_assoc in H. apply app_inv_head in H.
      rewrite dangling_piece in D by exact P.
      assert (L : length a' <= n).
      { rewrite app_length in Hle. destruct P as [P _]. apply kind_text_nonempty in P.
        unfold p_src in Hle. rewrite app_length in Hle. destruct (p_text p); [congruence|]. simpl in Hle. lia. }
      destruct (IHn a' ps L F' T H D) as (pre & q & post & E1 & E2 & E3 & E4).
      exists (p :: pre), q, post. subst ps. cbn [flat_map]. rewrite E2. auto.
    + (* the backslash is inside p: it must be its first character *)
      destruct P as [P1 P2]. unfold p_src in E, H. destruct (p_esc p) eqn:EE.
      * destruct a as [|d a].
        -- exists [], p, ps. split; [reflexivity|]. split; [reflexivity|]. split; [exact EE|].
           rewrite (P2 eq_refl) in P1. destruct P1 as (d & x & E1 & _). rewrite E1 in *.
           simpl in H. injection H as -> _. exists x; reflexivity.
        -- simpl in E. injection E as <- E. rewrite (P2 eq_refl) in P1. destruct P1 as (d & x & E1 & FX & _).
           rewrite E1 in E. destruct a as [|e a].
           ++ simpl in D. discriminate.
           ++ simpl in E. injection E as -> E.
              rewrite E in FX. apply Forall_elt in FX. discriminate.
      * simpl in E. apply kind_text_no_bslash in P1 as NB. rewrite E in NB. apply Forall_elt in NB. discriminate.
Qed.

Lemma annotate_nth_exists : forall ps o col r i p, nth_error ps i = Some p ->
  exists t, nth_error (annotate o col r ps) i = Some t.
Proof.
  intros. assert (L : i < length (annotate o col r ps)).
  { rewrite annotate_length. apply nth_error_Some. congruence. }
  apply nth_error_Some in L. destruct (nth_error (annotate o col r ps) i); [eauto|congruence].
Qed.

Lemma escaped_char_token : forall a c b ts,
  lex (a ++ c_bslash :: c :: b) = Ok ts -> dangling a = false ->
  exists t x, In t ts /\ kind t = Literal /\ escaped t = true /\ t_start t = byte_len a + 1
    /\ token_text (a ++ c_bslash :: c :: b) t = Ok (c :: x).
Proof.
  intros a c b ts H D. set (s := a ++ c_bslash :: c :: b) in *.
  destruct (pieces_src s) as (tl & S1 & S2).
  destruct (escape_boundary (pieces s) tl a c b (pieces_ok s) S2 (eq_sym S1) D)
    as (pre & p & post & E1 & E2 & E3 & x & E4).
  assert (N : nth_error (pieces s) (length pre) = Some p).
  { rewrite E1, nth_error_app2, Nat.sub_diag by lia. reflexivity. }
  destruct (annotate_nth_exists (pieces s) 0 0 0 _ p N) as [t Ht].
  assert (Ht' : nth_error ts (length pre) = Some t).
  { rewrite lex_correct in H. injection H as <-. exact Ht. }
  destruct (token_facts s ts _ t H Ht') as (pre' & p' & post' & tl' & A1 & A2 & A3 & A4 & A5 & A6 & A7 & A8 & _).
  assert (Q : pre' = pre /\ p' = p).
  { rewrite E1 in A1. clear - A1 A2. revert pre' A1 A2. induction pre; destruct pre'; simpl; intros A1 A2; try discriminate.
    - injection A1; auto.
    - injection A1 as -> A1. destruct (IHpre pre' A1) as [-> ->]; [lia|]. auto. }
  destruct Q as [-> ->].
  exists t, x. split; [eapply nth_error_In; exact Ht'|].
  rewrite A6, A7, E3. rewrite E3 in A8. destruct A5 as [_ A5].
  split; [auto|]. split; [reflexivity|]. split.
  - rewrite A8, E2. reflexivity.
  - destruct (token_text_piece s ts _ t H Ht') as (q & B1 & B2 & _). rewrite N in B1. injection B1 as <-.
    rewrite B2, E4. reflexivity.
Qed.

Lemma escaped_token_char : forall s ts t, lex s = Ok ts -> In t ts -> escaped t = true ->
  kind t = Literal /\ exists a c b, s = a ++ c_bslash :: c :: b /\ dangling a = false
    /\ t_start t = byte_len a + 1.
Proof.
  intros s ts t H Ht E. apply In_nth_error in Ht. destruct Ht as [i Ht].
  destruct (token_facts s ts i t H Ht) as (pre & p & post & tl & H1 & H2 & H3 & H4 & [H5 H5'] & H6 & H7 & H8 & H9 & _).
  rewrite E in H7. rewrite <- H7 in H8. rewrite H6. split; [auto|].
  symmetry in H7. rewrite (H5' H7) in H5. destruct H5 as (c & x & X & _).
  exists (flat_map p_src pre), c, (x ++ flat_map p_src post ++ tl).
  split; [|split].
  - rewrite H3 at 1. unfold p_src at 2. rewrite H7, X. reflexivity.
  - rewrite <- (app_nil_r (flat_map p_src pre)). rewrite dangling_pieces; [reflexivity|].
    pose proof (pieces_ok s) as F. rewrite H1 in F. apply Forall_app in F. apply F.
  - exact H8.
Qed.

Lemma token_gaps : forall s ts, lex s = Ok ts ->
  (forall t, nth_error ts 0 = Some t -> t_start t = if escaped t then 1 else 0)
  /\ (forall i t u, nth_error ts i = Some t -> nth_error ts (S i) = Some u ->
        t_start u = t_end t + if escaped u then 1 else 0).
Proof.
  intros s ts H. split.
  - intros t Ht.
    destruct (token_facts s ts 0 t H Ht) as (pre & p & post & tl & H1 & H2 & _ & _ & _ & _ & H7 & H8 & _).
    destruct pre; [|discriminate]. rewrite H8, H7. reflexivity.
  - intros i t u Hi Hj.
    destruct (token_facts s ts i t H Hi) as (pre & p & post & tl & A1 & A2 & _ & _ & _ & _ & _ & A8 & A9 & _).
    destruct (token_facts s ts (S i) u H Hj) as (pre' & p' & post' & tl' & B1 & B2 & _ & _ & _ & _ & B7 & B8 & B9 & _).
    assert (X : pre' = pre ++ [p]).
    { rewrite A1 in B1. clear - A2 B2 B1. subst i. revert pre' B1 B2.
      induction pre as [|x pre IH]; intros pre' B1 B2; destruct pre' as [|y pre']; simpl in *; try lia.
      - injection B1 as -> B1. destruct pre'; [reflexivity|simpl in B2; lia].
      - injection B1 as -> B1. rewrite (IH pre' B1) by lia. reflexivity. }
    subst pre'. rewrite flat_map_app in B8. cbn [flat_map] in B8. rewrite app_nil_r, byte_len_app, byte_len_src in B8.
    rewrite A9, A8, B8, B7. lia.
Qed.

(** ** C05 *)
Lemma token_kinds : forall s ts t, lex s = Ok ts -> In t ts ->
  exists txt, token_text s t = Ok txt /\ kind_text (kind t) (escaped t) txt.
Proof.
  intros s ts t H Ht. apply In_nth_error in Ht. destruct Ht as [i Ht].
  destruct (token_text_piece s ts i t H Ht) as (p & A & B & C & D).
  exists (p_text p). split; [exact B|]. rewrite C, D.
  pose proof (pieces_ok s) as F. rewrite Forall_forall in F. apply F. eapply nth_error_In; exact A.
Qed.

(** ** C06 *)

(** Two neighbours that the grammar keeps apart. *)
Definition neighbours_ok (k1 k2 : token_kind) (esc2 : bool) : Prop :=
  (k1 = Eol -> k2 <> Eol)
  /\ (esc2 = false ->
      (is_run_kind k1 = true -> k1 <> k2)
      /\ (k1 = Literal -> k2 <> Literal /\ k2 <> Space)).

Lemma char_run_max : forall c s a b, char_run c s = (a, b) ->
  match b with [] => True | d :: _ => char_eqb d c = false end.
Proof.
  induction s as [|d s IH]; simpl; intros a b H.
  - injection H as <- <-; exact I.
  - destruct (char_eqb d c) eqn:E.
    + destruct (char_run c s) as [a' b']. injection H as <- <-. eapply IH; reflexivity.
    + injection H as <- <-; exact E.
Qed.

Lemma lit_run_max : forall s a b, lit_run s = (a, b) ->
  match b with [] => True | d :: r => stops_literal d r = true end.
Proof.
  induction s as [|d s IH]; simpl; intros a b H.
  - injection H as <- <-; exact I.
  - destruct (stops_literal d s) eqn:E.
    + injection H as <- <-; exact E.
    + destruct (lit_run s) as [a' b']. injection H as <- <-. eapply IH; reflexivity.
Qed.

Lemma run_char_inj : forall c d k, run_kind c = Some k -> run_kind d = Some k -> c = d.
Proof.
  intros c d k Hc Hd. unfold run_kind in Hc, Hd.
  repeat match type of Hc with
  | (if char_eqb c ?x then _ else _) = _ =>
      destruct (char_eqb c x) eqn:?;
        [injection Hc as <-;
         repeat match type of Hd with
         | (if char_eqb d ?y then _ else _) = _ =>
             destruct (char_eqb d y) eqn:?; [try discriminate; char_cases; reflexivity|]
         end; discriminate|]
  end. discriminate.
Qed.

Lemma run_kind_is_run : forall c k, run_kind c = Some k -> is_run_kind k = true.
Proof.
  intros c k H. unfold run_kind in H.
  repeat match type of H with
  | (if char_eqb c ?x then _ else _) = _ =>
      destruct (char_eqb c x) eqn:?; [injection H as <-; reflexivity|]
  end. discriminate.
Qed.

Lemma single_kind_not_run : forall c k, single_kind c = Some k -> is_run_kind k = false /\ k <> Literal.
Proof.
  intros c k H. unfold single_kind in H.
  repeat match type of H with
  | (if char_eqb c ?x then _ else _) = _ =>
      destruct (char_eqb c x) eqn:?; [injection H as <-; split; [reflexivity|discriminate]|]
  end. discriminate.
Qed.

Lemma pair_kind_not_run : forall c s k t, pair_kind c s = Some (k, t) -> is_run_kind k = false /\ k <> Literal.
Proof.
  unfold pair_kind; intros c s k t H.
  destruct (char_eqb c c_nl); [injection H as <- <-; split; [reflexivity|discriminate]|].
  destruct s as [|d s]; [discriminate|].
  destruct (char_eqb c c_cr && char_eqb d c_nl);
    [|destruct (char_eqb c c_lcurly && char_eqb d c_percent);
      [|destruct (char_eqb c c_percent && char_eqb d c_rcurly); [|discriminate]]];
    injection H as <- <-; split; try reflexivity; discriminate.
Qed.

Lemma scan_run_char : forall s p r, scan_one s = Some (p, r) -> p_esc p = false ->
  is_run_kind (p_kind p) = true ->
  exists c s', s = c :: s' /\ run_kind c = Some (p_kind p) /\ snd (char_run c s') = r.
Proof.
  unfold scan_one; intros s p r H HE HR.
  destruct s as [|c s]; [discriminate|].
  destruct (pair_kind c s) as [[k t]|] eqn:E.
  - injection H as <- <-. apply pair_kind_not_run in E. simpl in HR. destruct E; congruence.
  - destruct (char_eqb c c_bslash) eqn:E1.
    + destruct s as [|d s]; [discriminate|]. destruct (lit_run s) as [a b].
      injection H as <- <-. discriminate.
    + destruct (run_kind c) as [k|] eqn:K.
      * destruct (char_run c s) as [a b] eqn:R. injection H as <- <-. exists c, s. rewrite R. auto.
      * destruct (single_kind c) as [k|] eqn:K2.
        -- injection H as <- <-. apply single_kind_not_run in K2. simpl in HR. destruct K2; congruence.
        -- destruct (lit_run s) as [a b]. injection H as <- <-. discriminate.
Qed.

Lemma scan_lit_rest : forall s p r, scan_one s = Some (p, r) -> p_kind p = Literal ->
  match r with [] => True | d :: r' => stops_literal d r' = true end.
Proof.
  unfold scan_one; intros s p r H HK.
  destruct s as [|c s]; [discriminate|].
  destruct (pair_kind c s) as [[k t]|] eqn:E.
  - injection H as <- <-. apply pair_kind_not_run in E. simpl in HK. destruct E; congruence.
  - destruct (char_eqb c c_bslash) eqn:E1.
    + destruct s as [|d s]; [discriminate|]. destruct (lit_run s) as [a b] eqn:R.
      injection H as <- <-. eapply lit_run_max; exact R.
    + destruct (run_kind c) as [k|] eqn:K.
      * destruct (char_run c s) as [a b] eqn:R. injection H as <- <-. simpl in HK. subst k.
        apply run_kind_is_run in K. discriminate.
      * destruct (single_kind c) as [k|] eqn:K2.
        -- injection H as <- <-. apply single_kind_not_run in K2. simpl in HK. destruct K2; congruence.
        -- destruct (lit_run s) as [a b] eqn:R. injection H as <- <-. eapply lit_run_max; exact R.
Qed.

Lemma scan_lit_stop : forall s p r, scan_one s = Some (p, r) -> p_esc p = false ->
  match s with [] => True | c :: s' => stops_literal c s' = true end ->
  p_kind p <> Literal /\ p_kind p <> Space.
Proof.
  unfold scan_one; intros s p r H HE HS.
  destruct s as [|c s]; [discriminate|].
  destruct (pair_kind c s) as [[k t]|] eqn:E.
  - injection H as <- <-. apply pair_kind_not_run in E. simpl. destruct E as [E1 E2]. split; [exact E2|].
    intro; subst k; discriminate.
  - unfold stops_literal in HS. rewrite E in HS.
    destruct (char_eqb c c_bslash) eqn:E1.
    + destruct s as [|d s]; [discriminate|]. destruct (lit_run s) as [a b].
      injection H as <- <-. discriminate.
    + destruct (run_kind c) as [k|] eqn:K.
      * destruct (char_run c s) as [a b] eqn:R. injection H as <- <-. simpl.
        split; [intro; subst k; apply run_kind_is_run in K; discriminate|].
        intro; subst k. assert (c = c_space) by (eapply run_char_inj; [exact K|reflexivity]).
        subst c. discriminate.
      * destruct (single_kind c) as [k|] eqn:K2.
        -- injection H as <- <-. apply single_kind_not_run in K2. simpl. destruct K2 as [K3 K4]. split; [exact K4|].
           intro; subst k; discriminate.
        -- discriminate.
Qed.

Lemma scan_neighbours : forall s p r q r', scan_one s = Some (p, r) -> scan_one r = Some (q, r') ->
  p_esc q = false ->
  (is_run_kind (p_kind p) = true -> p_kind p <> p_kind q)
  /\ (p_kind p = Literal -> p_kind q <> Literal /\ p_kind q <> Space).
Proof.
  intros s p r q r' H1 H2 HE. split.
  - intros HR EQ.
    assert (EP : p_esc p = false).
    { destruct (p_esc p) eqn:X; [|reflexivity]. apply scan_kinds in H1. destruct H1 as [_ H1].
      rewrite (H1 X) in HR. discriminate. }
    destruct (scan_run_char _ _ _ H1 EP HR) as (c & s1 & -> & K1 & R1).
    rewrite EQ in HR.
    destruct (scan_run_char _ _ _ H2 HE HR) as (d & s2 & -> & K2 & _).
    rewrite EQ in K1. assert (c = d) by (eapply run_char_inj; eauto). subst d.
    destruct (char_run c s1) as [a b] eqn:R. simpl in R1. subst b.
    apply char_run_max in R. rewrite char_eqb_refl in R. discriminate.
  - intros HL. pose proof (scan_lit_rest _ _ _ H1 HL) as HR.
    eapply scan_lit_stop; eauto.
Qed.

Fixpoint chain {A} (R : A -> A -> Prop) (l : list A) : Prop :=
  match l with
  | p :: ((q :: _) as l') => R p q /\ chain R l'
  | _ => True
  end.

Definition raw_adj (p q : piece) : Prop :=
  p_esc q = false ->
  (is_run_kind (p_kind p) = true -> p_kind p <> p_kind q)
  /\ (p_kind p = Literal -> p_kind q <> Literal /\ p_kind q <> Space).

Lemma raw_chain : forall s, chain raw_adj (raw_pieces s).
Proof.
  apply raw_ind.
  - intros s H. rewrite raw_unfold, H. exact I.
  - intros s p r H IH. rewrite raw_unfold, H. simpl.
    rewrite raw_unfold in IH |- *. destruct (scan_one r) as [[q r']|] eqn:E; [|exact I].
    split; [|exact IH]. intros HE. eapply scan_neighbours; eauto.
Qed.

Definition adj (p q : piece) : Prop := neighbours_ok (p_kind p) (p_kind q) (p_esc q).

Lemma merge_head : forall p l, exists m, merge (p :: l) = p :: m
  \/ (p_kind p = Eol /\ exists t, merge (p :: l) = mk_piece Terminator t false :: m).
Proof.
  intros p l. destruct l as [|q l]; cbn [merge]; [exists []; auto|].
  destruct (kind_eqb (p_kind p) Eol && kind_eqb (p_kind q) Eol) eqn:E.
  - exists (merge l). right. apply andb_true_iff in E. destruct E as [E _]. apply kind_eqb_eq in E. eauto.
  - eauto.
Qed.

Lemma merge_chain : forall l, chain raw_adj l -> chain adj (merge l).
Proof.
  apply (merge_ind (fun l m => chain raw_adj l -> chain adj m)).
  - intros; exact I.
  - intros; exact I.
  - intros p q l K1 K2 IH C. cbn [chain] in C. destruct C as [_ C].
    assert (C' : chain raw_adj l). { destruct l; [exact I|]. apply C. }
    specialize (IH C'). destruct l as [|x l]; [exact I|].
    destruct (merge_head x l) as [m [E|(_ & t & E)]]; rewrite E in *; cbn [chain]; (split; [|exact IH]);
      unfold adj, neighbours_ok; simpl; (split; [discriminate|]); intros _; split; discriminate.
  - intros p q l K IH C. cbn [chain] in C. destruct C as [C0 C]. specialize (IH C).
    destruct (merge_head q l) as [m [E|(K2 & t & E)]]; rewrite E in *; cbn [chain]; (split; [|exact IH]).
    + unfold adj, neighbours_ok. split; [intros; destruct K; congruence|]. exact C0.
    + destruct K as [K|K]; [|congruence].
      unfold adj, neighbours_ok; simpl. split; [intros; discriminate|].
      intros _. split; [intros R Q; rewrite Q in R; discriminate|intros; split; discriminate].
Qed.

Lemma chain_nth : forall A (R : A -> A -> Prop) l i p q, chain R l ->
  nth_error l i = Some p -> nth_error l (S i) = Some q -> R p q.
Proof.
  intros A R. induction l as [|x l IH]; intros i p q C H1 H2; [destruct i; discriminate|].
  destruct l as [|y l]; [destruct i as [|[|]]; discriminate|]. destruct C as [C0 C].
  destruct i; simpl in H1, H2.
  - injection H1 as <-. injection H2 as <-. exact C0.
  - eapply IH; [exact C|exact H1|exact H2].
Qed.

Lemma maximal_munch : forall s ts i t u, lex s = Ok ts ->
  nth_error ts i = Some t -> nth_error ts (S i) = Some u ->
  neighbours_ok (kind t) (kind u) (escaped u).
Proof.
  intros s ts i t u H Hi Hj.
  destruct (token_text_piece s ts i t H Hi) as (p & A1 & _ & A2 & _).
  destruct (token_text_piece s ts (S i) u H Hj) as (q & B1 & _ & B2 & B3).
  rewrite A2, B2, B3. apply (chain_nth _ adj (pieces s) i p q); auto.
  unfold pieces. apply merge_chain, raw_chain.
Qed.

(** ** C07 *)

Lemma kind_text_rows : forall k t s r col, kind_text k false t ->
  line_col r col (t ++ s)
  = line_col (r + kind_rows k) (if kind_rows k =? 0 then col + length t else 0) s.
Proof.
  intros k t s r col H.
  assert (R : forall n c, special c = true -> c <> c_nl -> c <> c_bslash ->
     line_col r col (repeat c n ++ s) = line_col r (col + n) s).
  { intros n c _ N1 N2. revert col. induction n; intros col; simpl; [rewrite Nat.add_0_r; reflexivity|].
    replace (char_eqb c c_bslash) with false.
    2:{ destruct (char_eqb c c_bslash) eqn:E; [apply char_eqb_eq in E; congruence|reflexivity]. }
    replace (char_eqb c c_nl) with false.
    2:{ destruct (char_eqb c c_nl) eqn:E; [apply char_eqb_eq in E; congruence|reflexivity]. }
    rewrite IHn. f_equal; lia. }
  assert (RS : forall n, line_col r col (repeat c_space n ++ s) = line_col r (col + n) s).
  { clear R H. intros n. revert col. induction n; intros col; simpl; [rewrite Nat.add_0_r; reflexivity|].
    rewrite IHn. f_equal; lia. }
  destruct k; cbn [kind_rows Nat.eqb]; simpl in H;
    try (subst t; simpl; f_equal; lia);
    try (destruct H as [n ->]; cbn [length]; rewrite repeat_length, Nat.add_0_r;
         (refine (R (S n) _ _ _ _); (reflexivity || discriminate)) || exact (RS (S n))).
  - destruct H as (a & b & -> & [->| ->] & [->| ->]); simpl; f_equal; lia.
  - destruct H as [->| ->]; reflexivity.
  - destruct H as (c & a & -> & F & G). destruct (G eq_refl) as [G1 _].
    rewrite Nat.add_0_r. apply line_col_plain. constructor; assumption.
Qed.

Lemma line_col_piece : forall p s r col, piece_ok p ->
  line_col r col (p_src p ++ s) = line_col (r + kind_rows (p_kind p)) (col_after col p) s.
Proof.
  intros p s r col [H1 H2]. unfold p_src, col_after. destruct (p_esc p) eqn:E.
  - rewrite (H2 eq_refl) in *. cbn [kind_rows Nat.eqb]. destruct H1 as (c & a & -> & F & _).
    change (line_col r col (([c_bslash] ++ c :: a) ++ s)) with (line_col r (col + 1) (a ++ s)).
    rewrite line_col_plain by exact F. simpl. f_equal; lia.
  - simpl. apply kind_text_rows. exact H1.
Qed.

Lemma line_col_pieces : forall ps s r col, Forall piece_ok ps ->
  line_col r col (flat_map p_src ps ++ s)
  = line_col (fold_left (fun r p => r + kind_rows (p_kind p)) ps r) (fold_left col_after ps col) s.
Proof.
  induction ps as [|p ps IH]; intros s r col F; [reflexivity|]. inversion F; subst. cbn [flat_map fold_left].
  rewrite <- app_assoc, line_col_piece, IH by assumption. reflexivity.
Qed.

Lemma token_positions : forall s ts t, lex s = Ok ts -> In t ts ->
  exists a b, s = a ++ b /\ byte_len a = t_start t
    /\ line_col 0 0 a = (row (t_pos t), column (t_pos t)).
Proof.
  intros s ts t H Ht. apply In_nth_error in Ht. destruct Ht as [i Ht].
  destruct (token_facts s ts i t H Ht) as (pre & p & post & tl & H1 & H2 & H3 & H4 & [H5 H5'] & H6 & H7 & H8 & H9 & H10 & H11 & H12).
  exists (flat_map p_src pre ++ if p_esc p then [c_bslash] else []), (p_text p ++ flat_map p_src post ++ tl).
  split; [|split].
  - rewrite H3 at 1. unfold p_src at 2. rewrite <- !app_assoc. reflexivity.
  - rewrite byte_len_app, H8. destruct (p_esc p); reflexivity.
  - rewrite line_col_pieces.
    + rewrite H11, H12. destruct (p_esc p); reflexivity.
    + pose proof (pieces_ok s) as F. rewrite H1 in F. apply Forall_app in F. apply F.
Qed.

Lemma fold_col_zero : forall pre p q, Forall piece_ok (pre ++ [p]) ->
  fold_left col_after (pre ++ [p]) q = 0 -> p_kind p = Eol \/ p_kind p = Terminator.
Proof.
  intros pre p q F H. rewrite fold_left_app in H. simpl in H. unfold col_after in H.
  apply Forall_elt in F. destruct F as [F _]. apply kind_text_nonempty in F.
  destruct (p_kind p); simpl in H; auto; destruct (p_text p); simpl in H; (congruence || lia).
Qed.

Lemma column_zero : forall s ts i u, lex s = Ok ts -> nth_error ts i = Some u ->
  (column (t_pos u) = 0 <->
   i = 0 \/ exists j t, i = S j /\ nth_error ts j = Some t /\ (kind t = Eol \/ kind t = Terminator)).
Proof.
  intros s ts i u H Hu.
  destruct (token_facts s ts i u H Hu) as (pre & p & post & tl & H1 & H2 & H3 & H4 & [H5 H5'] & H6 & H7 & H8 & H9 & H10 & H11 & H12).
  rewrite H12. destruct pre as [|x pre0] using rev_ind.
  - simpl in H2. subst i. split; auto.
  - clear IHpre0. rewrite app_length in H2. simpl in H2.
    assert (N : nth_error (pieces s) (length pre0) = Some x).
    { rewrite H1, <- app_assoc, nth_error_app2, Nat.sub_diag by lia. reflexivity. }
    destruct (annotate_nth_exists (pieces s) 0 0 0 _ x N) as [t Ht].
    assert (Ht' : nth_error ts (length pre0) = Some t).
    { rewrite lex_correct in H. injection H as <-. exact Ht. }
    destruct (token_text_piece s ts _ t H Ht') as (x' & B1 & _ & B2 & _). rewrite N in B1. injection B1 as <-.
    split.
    + intros Z. right. exists (length pre0), t. split; [lia|]. split; [exact Ht'|]. rewrite B2.
      eapply fold_col_zero; [|exact Z].
      pose proof (pieces_ok s) as F. rewrite H1 in F. apply Forall_app in F. apply F.
    + intros [->|(j & t' & -> & Hj & K)]; [lia|].
      assert (j = length pre0) by lia. subst j. rewrite Ht' in Hj. injection Hj as <-.
      rewrite fold_left_app. simpl. unfold col_after. rewrite <- B2. destruct K as [->| ->]; reflexivity.
Qed.

(** ** C08 *)

(** [n] calls of [next]. *)
Fixpoint nexts (n : nat) (lx : lexer) : outcome (list (option token)) :=
  match n with
  | 0 => Ok []
  | S n' =>
      let! (o, lx1) := lexer_next lx in
      let! l := nexts n' lx1 in Ok (o :: l)
  end.

Lemma nexts_cont : forall n o s lx, inv o s lx ->
  nexts n lx = Ok (firstn n (map Some (cont o s lx) ++ repeat None n)).
Proof.
  induction n; intros o s lx I; [reflexivity|]. cbn [nexts].
  destruct (lexer_next_ok o s lx I) as (lx1 & o1 & s1 & I1 & H).
  destruct (cont o s lx) as [|t l].
  - destruct H as [-> H]. simpl. rewrite (IHn o1 s1 lx1 I1), H. simpl. reflexivity.
  - destruct H as [-> H]. simpl. rewrite (IHn o1 s1 lx1 I1), H. simpl. do 2 f_equal.
    change (None :: repeat None n) with (repeat (@None token) (S n)).
    replace (S n) with (n + 1) by lia. rewrite repeat_app, app_assoc.
    rewrite (firstn_app n (map Some l ++ repeat None n)).
    replace (n - length (map Some l ++ repeat None n)) with 0
      by (rewrite app_length, repeat_length; lia).
    rewrite firstn_O, app_nil_r. reflexivity.
Qed.

Lemma iterator_protocol : forall s, exists ts, lex s = Ok ts /\ length ts <= length s
  /\ forall n, nexts n (lexer_new s) = Ok (firstn n (map Some ts ++ repeat None n)).
Proof.
  intros s. exists (spec_tokens s). split; [apply lex_correct|]. split; [apply spec_tokens_length|].
  intros n. rewrite (nexts_cont n 0 s _ (inv_new s)), cont_new. reflexivity.
Qed.
