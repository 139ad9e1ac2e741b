(** The model of the Rust parser emits the ops of the trees of the functional parser. *)
From Verif Require Import Base Lexer LexSpec LexProofs Ops Parser FParser.

(** ** States *)

(** The parser standing between the tokens [pre] and [ts]. *)
Definition ST (src : str) (pre ts : list token) (st : list stop_condition) (os : list op) : parser :=
  mk_parser src (pre ++ ts) (length pre) st os.

(** Every token can be sliced. *)
Definition vtok (src : str) (ts : list token) : Prop :=
  Forall (fun t => exists x, slice src (t_start t) (t_end t) = Ok x) ts.

Lemma ST_shift : forall src pre x ts st os,
  ST src (pre ++ x) ts st os = mk_parser src (pre ++ x ++ ts) (length pre + length x) st os.
Proof. intros. unfold ST. rewrite <- app_assoc, app_length. reflexivity. Qed.

Lemma nth_pre : forall (pre ts : list token) i, nth_error (pre ++ ts) (length pre + i) = nth_error ts i.
Proof. intros. rewrite nth_error_app2 by lia. f_equal. lia. Qed.
Lemma nth_pre0 : forall (pre ts : list token), nth_error (pre ++ ts) (length pre) = nth_error ts 0.
Proof. intros. rewrite <- (nth_pre pre ts 0). f_equal. lia. Qed.

Lemma peek_ST : forall src pre ts st os, peek (ST src pre ts st os) = nth_error ts 0.
Proof. intros. apply nth_pre0. Qed.
Lemma get_ST : forall src pre ts st os i, get (length pre + i) (ST src pre ts st os) = nth_error ts i.
Proof. intros. apply nth_pre. Qed.
Lemma get_ST0 : forall src pre ts st os, get (length pre) (ST src pre ts st os) = nth_error ts 0.
Proof. intros. apply nth_pre0. Qed.
Lemma at_ST : forall src pre ts st os f, at_ f (ST src pre ts st os) = nth_is 0 f ts.
Proof. intros. unfold at_, nth_is. rewrite peek_ST. reflexivity. Qed.

Lemma eat_ST : forall src pre ts st os f,
  eat f (ST src pre ts st os) =
  match ts with
  | t :: r => if f t then (Some (length pre, length pre + 1), ST src (pre ++ [t]) r st os)
              else (None, ST src pre ts st os)
  | [] => (None, ST src pre ts st os)
  end.
Proof.
  intros. unfold eat. cbn [tokens pos ST]. rewrite nth_pre0. destruct ts as [|t r]; [reflexivity|].
  simpl. destruct (f t); [|reflexivity]. rewrite ST_shift. reflexivity.
Qed.

Lemma next_ST : forall src pre t r st os,
  next (ST src pre (t :: r) st os) = ST src (pre ++ [t]) r st os.
Proof.
  intros. unfold next. cbn [tokens pos ST]. rewrite app_length. simpl.
  replace (length pre <? length pre + S (length r)) with true by (symmetry; apply Nat.ltb_lt; lia).
  rewrite ST_shift. reflexivity.
Qed.

Lemma existsb_ext' : forall A (f g : A -> bool) l, (forall x, f x = g x) -> existsb f l = existsb g l.
Proof. intros A f g l H. induction l; simpl; [reflexivity|]. rewrite H, IHl. reflexivity. Qed.

Lemma at_eof_ST : forall src pre ts st os, at_eof (ST src pre ts st os) = stopped st ts.
Proof.
  intros. unfold at_eof, stopped. rewrite peek_ST. destruct ts as [|t r]; [reflexivity|].
  cbn [nth_error]. cbn [eof_stack ST]. apply existsb_ext'. intros c. destruct c; try reflexivity.
  - unfold matches, fmatches. cbn [pos ST]. rewrite get_ST. reflexivity.
  - unfold matches, fmatches, at_list_boundary. cbn [nth_is nth_error is_some_and].
    change (nth_is 0 col0 (t :: r)) with (col0 t). f_equal. apply existsb_ext'. intros l.
    cbn [pos ST]. rewrite get_ST0, !get_ST. unfold boundary_at, nth_is.
    destruct (l =? 0); reflexivity.
Qed.

(** ** Spans *)

Lemma concat_tokens_ok : forall src ts, vtok src ts -> concat_tokens src ts = Ok (ttexts src ts).
Proof.
  induction ts as [|t ts IH]; intros V; [reflexivity|]. inversion V as [|? ? [x Hx] V']; subst.
  simpl. unfold ttext. rewrite Hx. simpl. rewrite IH by assumption. reflexivity.
Qed.

Lemma span_mid : forall src pre x post st os n, vtok src (pre ++ x ++ post) ->
  span (length pre, length pre + length x) (mk_parser src (pre ++ x ++ post) n st os)
  = Ok (content_of src x).
Proof.
  intros src pre x post st os n V. unfold span. cbn [tokens].
  destruct x as [|t x].
  { simpl. rewrite Nat.add_0_r, Nat.ltb_irrefl. reflexivity. }
  replace (length pre <? length pre + length (t :: x)) with true
    by (symmetry; apply Nat.ltb_lt; simpl; lia).
  replace (length pre + length (t :: x) <=? length (pre ++ (t :: x) ++ post)) with true
    by (symmetry; apply Nat.leb_le; rewrite !app_length; lia).
  replace (length pre + length (t :: x) - length pre) with (length (t :: x)) by lia.
  rewrite skipn_app, skipn_all, Nat.sub_diag. cbn [skipn app].
  change (t :: x ++ post) with ((t :: x) ++ post).
  rewrite firstn_app, firstn_all, Nat.sub_diag. cbn [firstn]. rewrite app_nil_r.
  assert (V' : vtok src (t :: x)).
  { apply Forall_app in V. destruct V as [_ V]. apply Forall_app in V. apply V. }
  unfold content_of. cbn [source]. destruct (existsb escaped (t :: x)) eqn:E.
  - unfold from_tokens. destruct (is_contiguous (t :: x)); cbn [andb negb].
    + reflexivity.
    + rewrite concat_tokens_ok by exact V'. reflexivity.
  - reflexivity.
Qed.

(** Usable form: the tokens of the state split as [a ++ x ++ b]. *)
Lemma span_ok : forall src pre ts st os a x b i j,
  vtok src (pre ++ ts) -> pre ++ ts = a ++ x ++ b -> i = length a -> j = length a + length x ->
  span (i, j) (ST src pre ts st os) = Ok (content_of src x).
Proof.
  intros src pre ts st os a x b i j V E -> ->. unfold ST. rewrite E in *. apply span_mid. exact V.
Qed.

Ltac list_eq := repeat (first [rewrite <- app_assoc | progress (cbn [app])]); reflexivity.
Ltac len_eq := repeat (first [rewrite app_length | progress (cbn [length])]); lia.

Ltac vt :=
  match goal with
  | V : vtok ?src ?l |- vtok ?src ?m => replace m with l by list_eq; exact V
  end.

(** Solve a span goal by giving the decomposition. *)
Ltac do_span a x b :=
  rewrite (span_ok _ _ _ _ _ a x b _ _); [cbn [bind] | vt | list_eq | len_eq | len_eq ].

Lemma vtok_assoc : forall src pre x ts, vtok src (pre ++ x ++ ts) -> vtok src ((pre ++ x) ++ ts).
Proof. intros; rewrite <- app_assoc; assumption. Qed.

(** ** Scanning *)

Lemma until_app : forall st m ts b c rest, until st m ts = Some (b, c, rest) ->
  ts = b ++ c :: rest /\ m c = true.
Proof.
  induction ts as [|t r IH]; simpl; intros b c rest H; [discriminate|].
  destruct (existsb (fun c => fmatches c (t :: r)) st); [discriminate|]. destruct (m t) eqn:E.
  - injection H as <- <- <-. auto.
  - destruct (until st m r) as [[[b' c'] rest']|]; [|discriminate]. injection H as <- <- <-.
    destruct (IH _ _ _ eq_refl) as [-> H]. auto.
Qed.

Lemma eat_until_loop_ST : forall n m ts src pre st os start, length ts < n ->
  start <= length pre ->
  eat_until_loop n start m (ST src pre ts st os) =
  match until st m ts with
  | Some (b, c, rest) =>
      Ok (Some ((start, length pre + length b), (length pre + length b, length pre + length b + 1)),
          ST src (pre ++ b ++ [c]) rest st os)
  | None => Ok (None, mk_parser src (pre ++ ts) start st os)
  end.
Proof.
  induction n; intros m ts src pre st os start Hn Hs; [lia|].
  cbn [eat_until_loop]. rewrite at_eof_ST. cbn [tokens pos ST]. rewrite nth_pre0.
  destruct ts as [|t r]; [reflexivity|]. cbn [nth_error until].
  destruct (stopped st (t :: r)); [reflexivity|]. destruct (m t) eqn:E.
  - rewrite Nat.add_0_r. do 2 f_equal. rewrite ST_shift. reflexivity.
  - replace (set_pos (length pre + 1) (ST src pre (t :: r) st os)) with (ST src (pre ++ [t]) r st os)
      by (rewrite ST_shift; reflexivity).
    rewrite IHn by (simpl in Hn; rewrite ?app_length; lia).
    destruct (until st m r) as [[[b c] rest]|].
    + rewrite app_length. cbn [length].
      replace (length pre + 1 + length b) with (length pre + S (length b)) by lia.
      do 2 f_equal. f_equal. list_eq.
    + rewrite <- app_assoc. reflexivity.
Qed.

Lemma eat_until_ST : forall m ts src pre st os,
  eat_until m (ST src pre ts st os) =
  match until st m ts with
  | Some (b, c, rest) =>
      Ok (Some ((length pre, length pre + length b), (length pre + length b, length pre + length b + 1)),
          ST src (pre ++ b ++ [c]) rest st os)
  | None => Ok (None, ST src pre ts st os)
  end.
Proof.
  intros. unfold eat_until. cbn [pos]. rewrite eat_until_loop_ST.
  - reflexivity.
  - unfold loop_fuel. cbn [tokens ST]. rewrite app_length. lia.
  - cbn [pos ST]. lia.
Qed.

(** ** Refinement *)

Definition refines (f : parser -> outcome (bool * parser)) (g : fparser) : Prop :=
  forall src pre ts st os, vtok src (pre ++ ts) ->
  match g st ts with
  | Some (t, rest) =>
      ts = yield t ++ rest
      /\ f (ST src pre ts st os) = Ok (true, ST src (pre ++ yield t) rest st (os ++ flatten src t))
  | None => f (ST src pre ts st os) = Ok (false, ST src pre ts st os)
  end.

Lemma refines_orelse : forall f1 g1 f2 g2, refines f1 g1 -> refines f2 g2 ->
  refines (orelse f1 f2) (forelse g1 g2).
Proof.
  intros f1 g1 f2 g2 H1 H2 src pre ts st os V. unfold orelse, forelse.
  specialize (H1 src pre ts st os V). destruct (g1 st ts) as [[t rest]|].
  - destruct H1 as [E ->]. split; [exact E|reflexivity].
  - rewrite H1. cbn [bind]. exact (H2 src pre ts st os V).
Qed.

Lemma firstn_os : forall (os x : list op), firstn (length os) (os ++ x) = os.
Proof. intros. rewrite firstn_app, firstn_all, Nat.sub_diag. cbn. apply app_nil_r. Qed.

Lemma set_pos_ST : forall src pre x ts st os,
  set_pos (length pre) (ST src (pre ++ x) ts st os) = ST src pre (x ++ ts) st os.
Proof. intros. unfold ST, set_pos. cbn. rewrite <- app_assoc. reflexivity. Qed.

Lemma set_pos_ST0 : forall src pre ts st os,
  set_pos (length pre) (ST src pre ts st os) = ST src pre ts st os.
Proof. reflexivity. Qed.

Lemma truncate_ST : forall src pre ts st os x,
  truncate_ops (length os) (ST src pre ts st (os ++ x)) = ST src pre ts st os.
Proof. intros. unfold truncate_ops, set_ops, ST. cbn. rewrite firstn_os. reflexivity. Qed.
Lemma truncate_ST0 : forall src pre ts st os,
  truncate_ops (length os) (ST src pre ts st os) = ST src pre ts st os.
Proof. intros. rewrite <- (app_nil_r os) at 2. apply truncate_ST. Qed.

Lemma push_ST : forall src pre ts st os o,
  push_op o (ST src pre ts st os) = ST src pre ts st (os ++ [o]).
Proof. reflexivity. Qed.

Lemma insert_ST : forall src pre ts st os x o,
  insert_op (length os) o (ST src pre ts st (os ++ x)) = Ok (ST src pre ts st (os ++ o :: x)).
Proof.
  intros. unfold insert_op, set_ops. cbn [ops ST]. rewrite app_length.
  replace (length os <=? length os + length x) with true by (symmetry; apply Nat.leb_le; lia).
  rewrite firstn_os, skipn_app, skipn_all, Nat.sub_diag. reflexivity.
Qed.

Lemma refines_delim : forall n o c, refines (delimited n o c) (fdelim n o c).
Proof.
  intros n o c src pre ts st os V. unfold delimited, fdelim. rewrite eat_ST.
  destruct ts as [|t r]; [reflexivity|]. destruct (o t) eqn:Eo; [|reflexivity].
  rewrite eat_until_ST. destruct (until st c r) as [[[b e] rest]|] eqn:U; cbn [bind].
  - apply until_app in U. destruct U as [-> Ee].
    split; [cbn; list_eq|].
    unfold push_leaf.
    assert (V' : vtok src (((pre ++ [t]) ++ b ++ [e]) ++ rest)).
    { replace (((pre ++ [t]) ++ b ++ [e]) ++ rest) with (pre ++ t :: b ++ e :: rest) by list_eq. exact V. }
    do_span pre [t] (b ++ e :: rest).
    do_span (pre ++ [t]) b (e :: rest).
    do_span (pre ++ t :: b) [e] rest.
    rewrite !push_ST. do 2 f_equal. cbn [yield flat_map flatten app].
    rewrite ?app_nil_r. unfold ST. f_equal; try list_eq; len_eq.
  - cbn [pos ST]. rewrite set_pos_ST. reflexivity.
Qed.

(** Destination. *)
Lemma dest_scan_app : forall st ts n b c rest, dest_scan st n ts = Some (b, c, rest) ->
  ts = b ++ c :: rest /\ kind c = RightParenthesis.
Proof.
  induction ts as [|t r IH]; intros n b c rest H; cbn [dest_scan] in H; [discriminate|].
  destruct (stopped st (t :: r)); [discriminate|].
  assert (M : forall m, match dest_scan st m r with Some (b, c, rest) => Some (t :: b, c, rest) | None => None end
              = Some (b, c, rest) -> t :: r = b ++ c :: rest /\ kind c = RightParenthesis).
  { intros m Hm. destruct (dest_scan st m r) as [[[b' c'] r']|] eqn:D; [|discriminate].
    injection Hm as <- <- <-. destruct (IH _ _ _ _ D) as [-> K]. auto. }
  destruct (kind t) eqn:K; try (eapply M; exact H).
  destruct (n - 1 =? 0).
  - injection H as <- <- <-. auto.
  - destruct (dest_scan st (n - 1) r) as [[[b' c'] r']|] eqn:D.
    + injection H as <- <- <-. destruct (IH _ _ _ _ D) as [-> K']. auto.
    + injection H as <- <- <-. auto.
Qed.

Lemma destination_loop_ST : forall n ts src pre st os count e, length ts < n ->
  exists q, destination_loop n count e (ST src pre ts st os) =
  Ok (match dest_scan st count ts with Some (b, _, _) => length pre + length b | None => e end,
      mk_parser src (pre ++ ts) q st os).
Proof.
  induction n; intros ts src pre st os count e Hn; [lia|].
  cbn [destination_loop]. rewrite peek_ST, at_eof_ST.
  destruct ts as [|t r]; [eexists; reflexivity|]. cbn [nth_error dest_scan].
  destruct (stopped st (t :: r)); [eexists; reflexivity|].
  replace (set_pos (pos (ST src pre (t :: r) st os) + 1) (ST src pre (t :: r) st os))
    with (ST src (pre ++ [t]) r st os) by (rewrite ST_shift; reflexivity).
  assert (Hr : length r < n) by (simpl in Hn; lia).
  assert (X : forall m e', exists q, destination_loop n m e' (ST src (pre ++ [t]) r st os) =
     Ok (match match dest_scan st m r with Some (b, c, rest) => Some (t :: b, c, rest) | None => None end with
         | Some (b, _, _) => length pre + length b | None => e' end,
         mk_parser src (pre ++ t :: r) q st os)).
  { intros m e'. destruct (IHn r src (pre ++ [t]) st os m e' Hr) as [q Hq]. exists q. rewrite Hq.
    rewrite <- app_assoc. cbn [app]. do 2 f_equal.
    destruct (dest_scan st m r) as [[[b c] rest]|]; [|reflexivity]. rewrite app_length. simpl. lia. }
  destruct (kind t); try apply X.
  destruct (count - 1 =? 0).
  - eexists. simpl. rewrite Nat.add_0_r. rewrite ST_shift. reflexivity.
  - destruct (X (count - 1) (pos (ST src pre (t :: r) st os))) as [q Hq]. exists q. rewrite Hq.
    destruct (dest_scan st (count - 1) r) as [[[b c] rest]|]; [reflexivity|].
    simpl. rewrite Nat.add_0_r. reflexivity.
Qed.

Lemma refines_dest : refines destination fdest.
Proof.
  intros src pre ts st os V. unfold destination, fdest. rewrite eat_ST.
  destruct ts as [|t r]; [reflexivity|]. destruct (is_left_paren t); [|reflexivity].
  destruct (destination_loop_ST (loop_fuel (ST src pre (t :: r) st os)) r src (pre ++ [t]) st os 1 (length pre))
    as [q Hq].
  { unfold loop_fuel. cbn [tokens ST]. rewrite app_length. simpl. lia. }
  cbn [pos ST]. fold (ST src pre (t :: r) st os). rewrite Hq. cbn [bind].
  rewrite <- app_assoc. cbn [app].
  destruct (dest_scan st 1 r) as [[[b c] rest]|] eqn:D.
  - apply dest_scan_app in D. destruct D as [-> _].
    replace (length pre =? length (pre ++ [t]) + length b) with false
      by (symmetry; apply Nat.eqb_neq; rewrite app_length; simpl; lia).
    split; [cbn; list_eq|].
    assert (P : forall x, mk_parser src (pre ++ t :: b ++ c :: rest) q st x
               = mk_parser src (pre ++ [t] ++ b ++ c :: rest) q st x) by reflexivity.
    replace (pre ++ t :: b ++ c :: rest) with (pre ++ [t] ++ (b ++ c :: rest)) at 1 by reflexivity.
    change (length pre + 1) with (length pre + length [t]).
    rewrite (span_mid src pre [t] (b ++ c :: rest)) by exact V. cbn [bind].
    replace (pre ++ t :: b ++ c :: rest) with ((pre ++ [t]) ++ b ++ (c :: rest)) by list_eq.
    replace (length pre + length [t]) with (length (pre ++ [t])) by (rewrite app_length; reflexivity).
    rewrite (span_mid src (pre ++ [t]) b (c :: rest)) by (rewrite <- app_assoc; exact V). cbn [bind].
    replace ((pre ++ [t]) ++ b ++ (c :: rest)) with (((pre ++ [t]) ++ b) ++ [c] ++ rest) by list_eq.
    replace (length (pre ++ [t]) + length b) with (length ((pre ++ [t]) ++ b)) by (rewrite !app_length; reflexivity).
    change (length ((pre ++ [t]) ++ b) + 1) with (length ((pre ++ [t]) ++ b) + length [c]).
    rewrite (span_mid src ((pre ++ [t]) ++ b) [c] rest).
    2:{ replace (((pre ++ [t]) ++ b) ++ [c] ++ rest) with (pre ++ t :: b ++ c :: rest) by list_eq. exact V. }
    cbn [bind]. do 2 f_equal. unfold push_op, set_ops, set_pos, ST. cbn. rewrite ?app_nil_r.
    f_equal; try list_eq; len_eq.
  - rewrite Nat.eqb_refl. reflexivity.
Qed.

Lemma vtok_step : forall src pre x ts, vtok src (pre ++ x ++ ts) -> vtok src ((pre ++ x) ++ ts).
Proof. intros; rewrite <- app_assoc; assumption. Qed.

Lemma refines_anchor : refines anchor fanchor.
Proof.
  intros src pre ts st os V. unfold anchor, fanchor.
  rewrite push_ST. pose proof (refines_delim NTitle is_left_bracket is_right_bracket src pre ts st
    (os ++ [new_start NAnchor no_content]) V) as H.
  fold ftitle in H. fold title in H.
  destruct (ftitle st ts) as [[t1 r1]|].
  - destruct H as [-> H]. rewrite H. cbn [bind negb].
    apply vtok_step in V.
    pose proof (refines_dest src (pre ++ yield t1) r1 st
      ((os ++ [new_start NAnchor no_content]) ++ flatten src t1) V) as H2.
    destruct (fdest st r1) as [[t2 r2]|].
    + destruct H2 as [-> H2]. rewrite H2. cbn [bind negb]. split.
      * cbn. rewrite !app_nil_r. list_eq.
      * rewrite push_ST. do 2 f_equal. unfold ST. f_equal.
        -- cbn. rewrite !app_nil_r. list_eq.
        -- cbn. rewrite !app_nil_r. len_eq.
        -- cbn. rewrite !app_nil_r. list_eq.
    + rewrite H2. cbn [bind negb]. cbn [pos ST]. rewrite set_pos_ST.
      rewrite <- app_assoc. cbn [ops ST]. rewrite truncate_ST. reflexivity.
  - rewrite H. cbn [bind negb]. cbn [pos ST]. rewrite set_pos_ST0. cbn [ops ST]. rewrite truncate_ST. reflexivity.
Qed.

(** ** Loops with pending text *)

(** [text_start] for the pending tokens [acc] that end right before the position. *)
Definition tstart (pre0 acc : list token) : option nat :=
  match acc with [] => None | _ => Some (length pre0) end.

Lemma push_text_ST : forall src pre0 acc ts st os, vtok src (pre0 ++ acc ++ ts) ->
  push_text (tstart pre0 acc) (length (pre0 ++ acc)) (ST src (pre0 ++ acc) ts st os)
  = Ok (ST src (pre0 ++ acc) ts st (os ++ flattens src (leaf acc))).
Proof.
  intros src pre0 acc ts st os V. unfold push_text, tstart, leaf. destruct acc as [|t acc].
  - cbn. rewrite !app_nil_r. reflexivity.
  - rewrite (span_ok _ _ _ _ _ pre0 (t :: acc) ts); [reflexivity| |list_eq|reflexivity|apply app_length].
    apply vtok_step; exact V.
Qed.

Lemma insert_text_ST : forall src pre0 acc x ts st os y, vtok src (pre0 ++ acc ++ x ++ ts) ->
  insert_text (tstart pre0 acc) (length (pre0 ++ acc)) (length os)
    (ST src ((pre0 ++ acc) ++ x) ts st (os ++ y))
  = Ok (ST src ((pre0 ++ acc) ++ x) ts st (os ++ flattens src (leaf acc) ++ y)).
Proof.
  intros src pre0 acc x ts st os y V. unfold insert_text, tstart, leaf. destruct acc as [|t acc].
  - reflexivity.
  - rewrite (span_ok _ _ _ _ _ pre0 (t :: acc) (x ++ ts)); [|  |list_eq|reflexivity|apply app_length].
    + cbn [bind]. rewrite insert_ST. reflexivity.
    + replace (((pre0 ++ t :: acc) ++ x) ++ ts) with (pre0 ++ (t :: acc) ++ x ++ ts) by list_eq. exact V.
Qed.

Lemma or_start_tstart : forall pre0 acc t,
  or_start (tstart pre0 acc) (length (pre0 ++ acc)) = tstart pre0 (acc ++ [t]).
Proof.
  intros. unfold or_start, tstart. destruct acc as [|a acc]; [rewrite app_nil_r; reflexivity|reflexivity].
Qed.

Lemma yields_app : forall a b, yields (a ++ b) = yields a ++ yields b.
Proof. intros; apply flat_map_app. Qed.
Lemma flattens_app : forall src a b, flattens src (a ++ b) = flattens src a ++ flattens src b.
Proof. intros; apply flat_map_app. Qed.
Lemma yields_leaf : forall ts, yields (leaf ts) = ts.
Proof. destruct ts; [reflexivity|]. cbn. rewrite app_nil_r. reflexivity. Qed.

(** What a functional node parser returns covers the tokens. *)
Definition covers (g : fparser) : Prop :=
  forall st ts t rest, g st ts = Some (t, rest) -> ts = yield t ++ rest /\ 1 <= length (yield t).

Lemma covers_delim : forall n o c, covers (fdelim n o c).
Proof.
  intros n o c st ts t rest H. unfold fdelim in H. destruct ts as [|a r]; [discriminate|].
  destruct (o a); [|discriminate]. destruct (until st c r) as [[[b e] r']|] eqn:U; [|discriminate].
  injection H as <- <-. apply until_app in U. destruct U as [-> _]. split; cbn; [list_eq|lia].
Qed.
Lemma covers_orelse : forall f g, covers f -> covers g -> covers (forelse f g).
Proof.
  intros f g Hf Hg st ts t rest H. unfold forelse in H. destruct (f st ts) as [[]|] eqn:E.
  - injection H as <- <-. apply Hf in E. exact E.
  - apply Hg in H. exact H.
Qed.
Lemma covers_dest : covers fdest.
Proof.
  intros st ts t rest H. unfold fdest in H. destruct ts as [|a r]; [discriminate|].
  destruct (is_left_paren a); [|discriminate]. destruct (dest_scan st 1 r) as [[[b e] r']|] eqn:U; [|discriminate].
  injection H as <- <-. apply dest_scan_app in U. destruct U as [-> _]. split; cbn; [list_eq|lia].
Qed.
Lemma covers_anchor : covers fanchor.
Proof.
  intros st ts t rest H. unfold fanchor in H. destruct (ftitle st ts) as [[t1 r1]|] eqn:E1; [|discriminate].
  destruct (fdest st r1) as [[t2 r2]|] eqn:E2; [|discriminate]. injection H as <- <-.
  apply covers_delim in E1. apply covers_dest in E2. destruct E1 as [-> L1], E2 as [-> L2].
  cbn. rewrite !app_nil_r. split; [list_eq|rewrite app_length; lia].
Qed.

Lemma fitems_app : forall g, covers g -> forall n st acc ts k rest,
  length ts < n -> fitems g n st acc ts = (k, rest) -> acc ++ ts = yields k ++ rest.
Proof.
  intros g C. induction n; intros st acc ts k rest Hn H; [lia|]. cbn [fitems] in H.
  destruct (stopped st ts).
  - injection H as <- <-. rewrite yields_leaf. reflexivity.
  - destruct (g st ts) as [[x r]|] eqn:E.
    + destruct (fitems g n st [] r) as [k' r'] eqn:F. injection H as <- <-.
      destruct (C _ _ _ _ E) as [-> L]. apply IHn in F; [|rewrite app_length in Hn; lia].
      cbn [app] in F. rewrite yields_app, yields_leaf. cbn. rewrite F. unfold yields. list_eq.
    + destruct ts as [|t r].
      * injection H as <- <-. rewrite yields_leaf. reflexivity.
      * apply IHn in H; [|simpl in Hn; lia]. rewrite <- H. list_eq.
Qed.

Lemma paragraph_loop_ST : forall f n ts src pre0 acc st os k rest,
  length ts < f -> length ts < n -> vtok src (pre0 ++ acc ++ ts) ->
  refines inline_node finline -> covers finline ->
  fitems finline n st acc ts = (k, rest) ->
  (let! (o, p1) := paragraph_loop f (tstart pre0 acc) (ST src (pre0 ++ acc) ts st os) in
   push_text o (pos p1) p1)
  = Ok (ST src (pre0 ++ yields k) rest st (os ++ flattens src k)).
Proof.
  induction f; intros n ts src pre0 acc st os k rest Hf Hn V R C H; [lia|].
  destruct n; [lia|]. cbn [fitems] in H. cbn [paragraph_loop]. rewrite at_eof_ST.
  destruct (stopped st ts) eqn:ES.
  - injection H as <- <-. cbn [bind]. cbn [pos ST]. rewrite push_text_ST by exact V.
    rewrite yields_leaf. reflexivity.
  - assert (V1 : vtok src ((pre0 ++ acc) ++ ts)) by (apply vtok_step; exact V).
    pose proof (R src (pre0 ++ acc) ts st os V1) as HR.
    destruct (finline st ts) as [[x r]|] eqn:E.
    + destruct HR as [-> HR]. rewrite HR. cbn [bind].
      destruct (fitems finline n st [] r) as [k' r'] eqn:F. injection H as <- <-.
      cbn [pos ops ST]. rewrite insert_text_ST by exact V. cbn [bind].
      pose proof (C _ _ _ _ E) as [_ L].
      change (@None nat) with (tstart ((pre0 ++ acc) ++ yield x) []).
      rewrite <- (app_nil_r ((pre0 ++ acc) ++ yield x)) at 2.
      rewrite (IHf n r src _ [] st _ k' r'); try assumption.
      * f_equal. unfold ST. f_equal.
        -- rewrite yields_app, yields_leaf. cbn. unfold yields. list_eq.
        -- rewrite yields_app, yields_leaf. cbn. unfold yields. len_eq.
        -- rewrite flattens_app. cbn. unfold flattens. list_eq.
      * rewrite app_length in Hf; lia.
      * rewrite app_length in Hn; lia.
      * cbn [app]. replace (((pre0 ++ acc) ++ yield x) ++ r) with (pre0 ++ acc ++ yield x ++ r) by list_eq. exact V.
    + rewrite HR. cbn [bind]. destruct ts as [|t r]; [discriminate|].
      rewrite next_ST. cbn [pos ST]. rewrite (or_start_tstart pre0 acc t). rewrite <- app_assoc.
      rewrite (IHf n r src pre0 (acc ++ [t]) st os k rest); try assumption; try (simpl in *; lia); [reflexivity|].
      replace (pre0 ++ (acc ++ [t]) ++ r) with (pre0 ++ acc ++ t :: r) by list_eq. exact V.
Qed.

Lemma heading_loop_ST : forall f n ts src pre0 acc st os k rest,
  length ts < f -> length ts < n -> vtok src (pre0 ++ acc ++ ts) ->
  fitems fanchor n st acc ts = (k, rest) ->
  (let! (o, p1) := heading_loop f (tstart pre0 acc) (ST src (pre0 ++ acc) ts st os) in
   push_text o (pos p1) p1)
  = Ok (ST src (pre0 ++ yields k) rest st (os ++ flattens src k)).
Proof.
  induction f; intros n ts src pre0 acc st os k rest Hf Hn V H; [lia|].
  destruct n; [lia|]. cbn [fitems] in H. cbn [heading_loop]. rewrite at_eof_ST, peek_ST.
  destruct ts as [|t0 r0].
  { cbn in H. injection H as <- <-. cbn [nth_error bind]. cbn [pos ST]. rewrite push_text_ST by exact V.
    rewrite yields_leaf. reflexivity. }
  cbn [nth_error]. remember (t0 :: r0) as ts eqn:Ets.
  destruct (stopped st ts) eqn:ES.
  - injection H as <- <-. cbn [bind]. cbn [pos ST]. rewrite push_text_ST by exact V.
    rewrite yields_leaf. reflexivity.
  - assert (V1 : vtok src ((pre0 ++ acc) ++ ts)) by (apply vtok_step; exact V).
    pose proof (refines_anchor src (pre0 ++ acc) ts st os V1) as HR.
    destruct (fanchor st ts) as [[x r]|] eqn:E.
    + destruct HR as [Hts HR]. rewrite HR. cbn [bind].
      destruct (fitems fanchor n st [] r) as [k' r'] eqn:F. injection H as <- <-.
      cbn [pos ops ST].
      assert (V2 : vtok src (pre0 ++ acc ++ yield x ++ r)) by (rewrite <- Hts; exact V).
      rewrite insert_text_ST by exact V2. cbn [bind].
      pose proof (covers_anchor _ _ _ _ E) as [_ L].
      assert (LL : length ts = length (yield x) + length r) by (rewrite Hts at 1; apply app_length).
      change (@None nat) with (tstart ((pre0 ++ acc) ++ yield x) []).
      rewrite <- (app_nil_r ((pre0 ++ acc) ++ yield x)) at 2.
      rewrite (IHf n r src _ [] st _ k' r'); try assumption; try lia.
      * f_equal. unfold ST. f_equal.
        -- rewrite yields_app, yields_leaf. cbn. unfold yields. list_eq.
        -- rewrite yields_app, yields_leaf. cbn. unfold yields. len_eq.
        -- rewrite flattens_app. cbn. unfold flattens. list_eq.
      * cbn [app]. replace (((pre0 ++ acc) ++ yield x) ++ r) with (pre0 ++ acc ++ yield x ++ r) by list_eq. exact V2.
    + rewrite HR. cbn [bind]. rewrite Ets in *.
      rewrite next_ST. cbn [pos ST]. rewrite (or_start_tstart pre0 acc t0). rewrite <- app_assoc.
      rewrite (IHf n r0 src pre0 (acc ++ [t0]) st os k rest); try assumption; try (simpl in *; lia); [reflexivity|].
      replace (pre0 ++ (acc ++ [t0]) ++ r0) with (pre0 ++ acc ++ t0 :: r0) by list_eq. exact V.
Qed.

(** Bold. *)
Lemma fbold_loop_app : forall n st acc ts k c rest, length ts < n ->
  fbold_loop n st acc ts = Some (k, c, rest) -> acc ++ ts = yields k ++ c :: rest /\ is_star2 c = true.
Proof.
  induction n; intros st acc ts k c rest Hn H; [lia|]. cbn [fbold_loop] in H.
  destruct ts as [|t r]; [discriminate|]. destruct (stopped st (t :: r)); [discriminate|].
  destruct (is_star2 t) eqn:E2.
  - injection H as <- <- <-. rewrite yields_leaf. auto.
  - destruct (forelse fstrike fitalic st (t :: r)) as [[x r']|] eqn:E.
    + destruct (fbold_loop n st [] r') as [[[k' c'] r2]|] eqn:F; [|discriminate]. injection H as <- <- <-.
      apply (covers_orelse _ _ (covers_delim _ _ _) (covers_delim _ _ _)) in E. destruct E as [E L].
      rewrite E. assert (LL : length (t :: r) = length (yield x) + length r') by (rewrite E; apply app_length).
      apply IHn in F; [|lia]. cbn [app] in F. destruct F as [F S2]. split; [|exact S2].
      rewrite yields_app, yields_leaf. cbn. rewrite F. unfold yields. list_eq.
    + apply IHn in H; [|simpl in Hn; lia]. destruct H as [H S2]. split; [|exact S2]. rewrite <- H. list_eq.
Qed.

Lemma bold_loop_ST : forall f n ts src pre0 acc st os,
  length ts < f -> length ts < n -> vtok src (pre0 ++ acc ++ ts) ->
  match fbold_loop n st acc ts with
  | Some (k, c, rest) =>
      bold_loop f (tstart pre0 acc) (ST src (pre0 ++ acc) ts st os)
      = Ok (true, ST src (pre0 ++ yields k ++ [c]) rest st
                    (os ++ flattens src k ++ [new_end NBold (content_of src [c])]))
  | None =>
      exists pre' ts' os', bold_loop f (tstart pre0 acc) (ST src (pre0 ++ acc) ts st os)
      = Ok (false, ST src (pre0 ++ acc ++ pre') ts' st (os ++ os')) /\ ts = pre' ++ ts'
  end.
Proof.
  induction f; intros n ts src pre0 acc st os Hf Hn V; [lia|].
  destruct n; [lia|]. cbn [fbold_loop bold_loop]. rewrite at_eof_ST, peek_ST.
  destruct ts as [|t r].
  { exists [], [], []. cbn [nth_error]. rewrite !app_nil_r. auto. }
  cbn [nth_error]. destruct (stopped st (t :: r)) eqn:ES.
  { exists [], (t :: r), []. rewrite !app_nil_r. auto. }
  rewrite eat_ST. destruct (is_star2 t) eqn:E2.
  - cbn [pos ST].
    pose proof (push_text_ST src pre0 acc (t :: r) st os V) as PT.
    assert (PT' : push_text (tstart pre0 acc) (length (pre0 ++ acc)) (ST src ((pre0 ++ acc) ++ [t]) r st os)
                  = Ok (ST src ((pre0 ++ acc) ++ [t]) r st (os ++ flattens src (leaf acc)))).
    { unfold push_text, tstart, leaf. destruct acc as [|a acc].
      - cbn. rewrite !app_nil_r. reflexivity.
      - rewrite (span_ok _ _ _ _ _ pre0 (a :: acc) (t :: r)); [reflexivity| |list_eq|reflexivity|apply app_length].
        replace (((pre0 ++ a :: acc) ++ [t]) ++ r) with (pre0 ++ (a :: acc) ++ t :: r) by list_eq. exact V. }
    rewrite PT'. cbn [bind].
    do_span (pre0 ++ acc) [t] r.
    rewrite push_ST. rewrite yields_leaf. do 2 f_equal. unfold ST. f_equal; try list_eq; len_eq.
  - assert (V1 : vtok src ((pre0 ++ acc) ++ t :: r)) by (apply vtok_step; exact V).
    pose proof (refines_orelse _ _ _ _ (refines_delim NStrikethrough is_tilde is_tilde)
                  (refines_delim NItalic is_underscore is_underscore) src (pre0 ++ acc) (t :: r) st os V1) as HR.
    fold fstrike fitalic strikethrough italic in HR.
    destruct (forelse fstrike fitalic st (t :: r)) as [[x r']|] eqn:E.
    + destruct HR as [Hts HR]. rewrite HR. cbn [bind]. cbn [pos ops ST].
      assert (V2 : vtok src (pre0 ++ acc ++ yield x ++ r')) by (rewrite <- Hts; exact V).
      rewrite insert_text_ST by exact V2. cbn [bind].
      apply (covers_orelse _ _ (covers_delim _ _ _) (covers_delim _ _ _)) in E. destruct E as [_ L].
      assert (LL : length (t :: r) = length (yield x) + length r') by (rewrite Hts at 1; apply app_length).
      change (@None nat) with (tstart ((pre0 ++ acc) ++ yield x) []).
      replace (ST src ((pre0 ++ acc) ++ yield x) r' st)
        with (ST src (((pre0 ++ acc) ++ yield x) ++ []) r' st) by (rewrite app_nil_r; reflexivity).
      assert (V3 : vtok src (((pre0 ++ acc) ++ yield x) ++ [] ++ r')).
      { cbn [app]. replace (((pre0 ++ acc) ++ yield x) ++ r') with (pre0 ++ acc ++ yield x ++ r') by list_eq. exact V2. }
      assert (L1 : length r' < f) by lia. assert (L2 : length r' < n) by lia.
      pose proof (IHf n r' src ((pre0 ++ acc) ++ yield x) [] st
                    (os ++ flattens src (leaf acc) ++ flatten src x) L1 L2 V3) as IH.
      destruct (fbold_loop n st [] r') as [[[k c] rest]|].
      * rewrite IH. do 2 f_equal. unfold ST. f_equal.
        -- rewrite yields_app, yields_leaf. cbn. unfold yields. list_eq.
        -- rewrite yields_app, yields_leaf. cbn. unfold yields. len_eq.
        -- rewrite flattens_app. cbn. unfold flattens. list_eq.
      * destruct IH as (pre' & ts' & os' & IH & Ets). rewrite IH.
        exists (yield x ++ pre'), ts', (flattens src (leaf acc) ++ flatten src x ++ os'). split.
        -- do 2 f_equal. unfold ST. f_equal; try list_eq; len_eq.
        -- rewrite Hts, Ets. list_eq.
    + rewrite HR. cbn [bind]. rewrite next_ST. cbn [pos ST].
      rewrite (or_start_tstart pre0 acc t). rewrite <- app_assoc.
      assert (V2 : vtok src (pre0 ++ (acc ++ [t]) ++ r)).
      { replace (pre0 ++ (acc ++ [t]) ++ r) with (pre0 ++ acc ++ t :: r) by list_eq. exact V. }
      assert (L1 : length r < f) by (simpl in Hf; lia). assert (L2 : length r < n) by (simpl in Hn; lia).
      pose proof (IHf n r src pre0 (acc ++ [t]) st os L1 L2 V2) as IH.
      destruct (fbold_loop n st (acc ++ [t]) r) as [[[k c] rest]|]; [exact IH|].
      destruct IH as (pre' & ts' & os' & IH & Ets). rewrite IH.
      exists (t :: pre'), ts', os'. split; [|subst r; reflexivity].
      do 2 f_equal. unfold ST. f_equal; try list_eq; len_eq.
Qed.

Lemma refines_bold : refines bold fbold.
Proof.
  intros src pre ts st os V. unfold bold, fbold. rewrite eat_ST.
  destruct ts as [|t r]; [reflexivity|]. destruct (is_star2 t) eqn:E2; [|reflexivity].
  assert (V1 : vtok src ((pre ++ [t]) ++ r)).
  { replace ((pre ++ [t]) ++ r) with (pre ++ t :: r) by list_eq. exact V. }
  do_span pre [t] r. rewrite push_ST.
  set (os1 := os ++ [new_start NBold (content_of src [t])]).
  change (@None nat) with (tstart (pre ++ [t]) []).
  replace (ST src (pre ++ [t]) r st os1) with (ST src ((pre ++ [t]) ++ []) r st os1)
    by (rewrite app_nil_r; reflexivity).
  assert (Lf : length r < loop_fuel (ST src pre (t :: r) st os)).
  { unfold loop_fuel. cbn [tokens ST]. rewrite app_length. simpl. lia. }
  assert (Ln : length r < S (length r)) by lia.
  pose proof (bold_loop_ST _ _ r src (pre ++ [t]) [] st os1 Lf Ln V1) as H.
  destruct (fbold_loop (S (length r)) st [] r) as [[[k c] rest]|] eqn:F.
  - rewrite H. cbn [bind]. apply fbold_loop_app in F; [|lia]. destruct F as [F _]. cbn [app] in F. subst r. split.
    + cbn. fold (yields k). list_eq.
    + do 2 f_equal. unfold ST, os1. cbn. fold (yields k) (flattens src k). f_equal; try list_eq; len_eq.
  - destruct H as (pre' & ts' & os' & H & Ets). rewrite H. cbn [bind].
    cbn [pos ops ST]. f_equal. f_equal. unfold os1.
    replace (ST src ((pre ++ [t]) ++ [] ++ pre') ts' st ((os ++ [new_start NBold (content_of src [t])]) ++ os'))
      with (ST src (pre ++ (t :: pre')) ts' st (os ++ new_start NBold (content_of src [t]) :: os')).
    + rewrite set_pos_ST, truncate_ST. subst r. reflexivity.
    + unfold ST. f_equal; try list_eq; len_eq.
Qed.

Lemma covers_bold : covers fbold.
Proof.
  intros st ts t rest H. unfold fbold in H. destruct ts as [|a r]; [discriminate|].
  destruct (is_star2 a); [|discriminate].
  destruct (fbold_loop (S (length r)) st [] r) as [[[k c] r']|] eqn:F; [|discriminate].
  injection H as <- <-. apply fbold_loop_app in F; [|lia]. destruct F as [F _]. cbn [app] in F. subst r.
  cbn. fold (yields k). split; [list_eq|lia].
Qed.

Lemma refines_inline : refines inline_node finline.
Proof.
  unfold inline_node, finline. repeat apply refines_orelse; try apply refines_delim.
  - apply refines_bold.
  - apply refines_anchor.
Qed.
Lemma covers_inline : covers finline.
Proof.
  unfold finline. repeat apply covers_orelse; try apply covers_delim.
  - apply covers_bold.
  - apply covers_anchor.
Qed.

(** Paragraph. *)
Lemma fparagraph_app : forall st ts t rest, fparagraph st ts = (t, rest) -> ts = yield t ++ rest.
Proof.
  intros st ts t rest H. unfold fparagraph in H.
  destruct (fitems finline (S (length ts)) st [] ts) as [k r] eqn:F. injection H as <- <-.
  apply fitems_app in F; [|apply covers_inline|lia]. cbn [app] in F. rewrite F. cbn. rewrite app_nil_r. reflexivity.
Qed.

Lemma paragraph_ST : forall src pre ts st os t rest, vtok src (pre ++ ts) ->
  fparagraph st ts = (t, rest) ->
  paragraph (ST src pre ts st os) = Ok (tt, ST src (pre ++ yield t) rest st (os ++ flatten src t)).
Proof.
  intros src pre ts st os t rest V H. unfold paragraph, fparagraph in *.
  destruct (fitems finline (S (length ts)) st [] ts) as [k r] eqn:F. injection H as <- <-.
  rewrite push_ST. set (os1 := os ++ [new_start NParagraph no_content]).
  assert (Lf : length ts < loop_fuel (ST src pre ts st os)).
  { unfold loop_fuel. cbn [tokens ST]. rewrite app_length. lia. }
  pose proof (paragraph_loop_ST _ (S (length ts)) ts src pre [] st os1 k r Lf (Nat.lt_succ_diag_r _) V
                refines_inline covers_inline F) as H.
  rewrite app_nil_r in H. cbn [tstart] in H.
  destruct (paragraph_loop (loop_fuel (ST src pre ts st os)) None (ST src pre ts st os1)) as [[o p1]| |];
    cbn [bind] in *; try discriminate.
  rewrite H. cbn [bind]. rewrite push_ST. do 2 f_equal. unfold ST, os1. cbn.
  fold (yields k) (flattens src k). rewrite app_nil_r. f_equal. list_eq.
Qed.

(** Progress: a paragraph takes the first token unless a stop is there. *)
Lemma fitems_progress : forall g n st acc ts k rest, covers g -> length ts < n ->
  fitems g n st acc ts = (k, rest) -> stopped st ts = false -> length rest < length ts.
Proof.
  intros g n st acc ts k rest C Hn H S.
  assert (G : forall n st acc ts k rest, length ts < n -> fitems g n st acc ts = (k, rest) -> length rest <= length ts).
  { clear - C. induction n; intros st acc ts k rest Hn H; [lia|]. cbn [fitems] in H.
    destruct (stopped st ts).
    - injection H as <- <-. lia.
    - destruct (g st ts) as [[x r]|] eqn:E.
      + destruct (fitems g n st [] r) as [k' r'] eqn:F. injection H as <- <-.
        destruct (C _ _ _ _ E) as [-> L]. rewrite app_length in *. apply IHn in F; lia.
      + destruct ts as [|t r]; [injection H as <- <-; lia|]. apply IHn in H; simpl in *; lia. }
  destruct n; [lia|]. cbn [fitems] in H. rewrite S in H.
  destruct (g st ts) as [[x r]|] eqn:E.
  - destruct (fitems g n st [] r) as [k' r'] eqn:F. injection H as <- <-.
    destruct (C _ _ _ _ E) as [-> L]. rewrite app_length in *. apply G in F; lia.
  - destruct ts as [|t r]; [discriminate|]. apply G in H; simpl in *; lia.
Qed.

Lemma fparagraph_progress : forall st ts t rest, fparagraph st ts = (t, rest) ->
  stopped st ts = false -> length rest < length ts.
Proof.
  intros st ts t rest H S0. unfold fparagraph in H.
  destruct (fitems finline (S (length ts)) st [] ts) as [k r] eqn:F. injection H as <- <-.
  eapply fitems_progress; [apply covers_inline| |exact F|exact S0]. lia.
Qed.

(** ** Sequences *)

Lemma fseq_app : forall preds ts a b, fseq preds ts = Some (a, b) ->
  ts = a ++ b /\ length a = length preds /\ Forall2 (fun f t => f t = true) preds a.
Proof.
  induction preds as [|f fs IH]; intros ts a b H; cbn [fseq] in H.
  - injection H as <- <-. auto.
  - destruct ts as [|t r]; [discriminate|]. destruct (f t) eqn:E; [|discriminate].
    destruct (fseq fs r) as [[a' b']|] eqn:F; [|discriminate]. injection H as <- <-.
    apply IH in F. destruct F as (-> & L & A). split; [reflexivity|]. split; [simpl; lia|]. constructor; auto.
Qed.

Lemma eat_all_ST : forall preds src pre ts st os,
  match fseq preds ts with
  | Some (a, b) => eat_all preds (ST src pre ts st os) = (true, ST src (pre ++ a) b st os)
  | None => exists a b, eat_all preds (ST src pre ts st os) = (false, ST src (pre ++ a) b st os) /\ ts = a ++ b
  end.
Proof.
  induction preds as [|f fs IH]; intros src pre ts st os; cbn [fseq eat_all].
  - rewrite app_nil_r. reflexivity.
  - rewrite eat_ST. destruct ts as [|t r].
    + exists [], []. rewrite app_nil_r. auto.
    + destruct (f t).
      * specialize (IH src (pre ++ [t]) r st os). destruct (fseq fs r) as [[a b]|].
        -- rewrite IH. rewrite <- app_assoc. reflexivity.
        -- destruct IH as (a & b & H & ->). exists (t :: a), b. rewrite H, <- app_assoc. auto.
      * exists [], (t :: r). rewrite app_nil_r. auto.
Qed.

Lemma eat_seq_ST : forall preds src pre ts st os,
  eat_seq preds (ST src pre ts st os) =
  match fseq preds ts with
  | Some (a, b) => (Some (length pre, length pre + length a), ST src (pre ++ a) b st os)
  | None => (None, ST src pre ts st os)
  end.
Proof.
  intros. unfold eat_seq. pose proof (eat_all_ST preds src pre ts st os) as H.
  destruct (fseq preds ts) as [[a b]|].
  - rewrite H. cbn [pos ST]. rewrite app_length. reflexivity.
  - destruct H as (a & b & -> & ->). cbn [pos ST]. rewrite set_pos_ST. reflexivity.
Qed.

(** Heading. *)
Lemma fheading_eq : forall st ts, fheading st ts =
  match fseq [is_hash; is_space_1] ts with
  | Some (o, r) => let (k, rest) := fitems fanchor (S (length r)) st [] r in Some (Node NHeading o k [], rest)
  | None => None
  end.
Proof.
  intros st ts. unfold fheading. cbn [fseq]. destruct ts as [|t [|u r]]; try reflexivity.
  - destruct (is_hash t); reflexivity.
  - destruct (is_hash t); [|reflexivity]. destruct (is_space_1 u); reflexivity.
Qed.

Lemma refines_heading : refines heading fheading.
Proof.
  intros src pre ts st os V. rewrite fheading_eq. unfold heading. rewrite eat_seq_ST.
  destruct (fseq [is_hash; is_space_1] ts) as [[o r]|] eqn:Q; [|reflexivity].
  apply fseq_app in Q. destruct Q as (-> & _ & _).
  destruct (fitems fanchor (S (length r)) st [] r) as [k rest] eqn:F.
  assert (V1 : vtok src ((pre ++ o) ++ r)) by (apply vtok_step; exact V).
  do_span pre o r. rewrite push_ST.
  set (os1 := os ++ [new_start NHeading (content_of src o)]).
  assert (Lf : length r < loop_fuel (ST src pre (o ++ r) st os)).
  { unfold loop_fuel. cbn [tokens ST]. rewrite !app_length. lia. }
  pose proof (heading_loop_ST _ (S (length r)) r src (pre ++ o) [] st os1 k rest Lf (Nat.lt_succ_diag_r _) V1 F) as H.
  rewrite app_nil_r in H. cbn [tstart] in H.
  destruct (heading_loop (loop_fuel (ST src pre (o ++ r) st os)) None (ST src (pre ++ o) r st os1)) as [[x p1]| |];
    cbn [bind] in *; try discriminate.
  rewrite H. cbn [bind]. rewrite push_ST. apply fitems_app in F; [|apply covers_anchor|lia]. cbn [app] in F. subst r.
  split.
  - cbn. fold (yields k). rewrite app_nil_r. list_eq.
  - do 2 f_equal. unfold ST, os1. cbn. fold (yields k) (flattens src k). rewrite app_nil_r. f_equal; try list_eq; len_eq.
Qed.

(** Image. *)
Lemma refines_image : refines image fimage.
Proof.
  intros src pre ts st os V. unfold image, fimage. rewrite eat_ST.
  destruct ts as [|t r]; [reflexivity|]. destruct (is_bang t) eqn:E2; [|reflexivity].
  assert (V1 : vtok src ((pre ++ [t]) ++ r)).
  { replace ((pre ++ [t]) ++ r) with (pre ++ t :: r) by list_eq. exact V. }
  do_span pre [t] r. rewrite push_ST.
  set (os1 := os ++ [new_start NImage (content_of src [t])]).
  pose proof (refines_delim NTitle is_left_bracket is_right_bracket src (pre ++ [t]) r st os1 V1) as H.
  fold ftitle in H. fold title in H.
  cbn [pos ops ST].
  destruct (ftitle st r) as [[t1 r1]|].
  2:{ rewrite H. cbn [bind negb]. rewrite set_pos_ST. unfold os1. rewrite truncate_ST. reflexivity. }
  destruct H as [-> H]. rewrite H. cbn [bind negb].
  assert (V2 : vtok src (((pre ++ [t]) ++ yield t1) ++ r1)) by (rewrite <- app_assoc; exact V1).
  pose proof (refines_dest src ((pre ++ [t]) ++ yield t1) r1 st (os1 ++ flatten src t1) V2) as H2.
  destruct (fdest st r1) as [[t2 r2]|].
  2:{ rewrite H2. cbn [bind negb]. unfold os1. rewrite <- !app_assoc.
      rewrite set_pos_ST, truncate_ST. reflexivity. }
  destruct H2 as [-> H2]. rewrite H2. cbn [bind negb]. rewrite eat_ST.
  set (pre3 := ((pre ++ [t]) ++ yield t1) ++ yield t2).
  set (os3 := (os1 ++ flatten src t1) ++ flatten src t2).
  assert (V3 : vtok src (pre3 ++ r2)).
  { unfold pre3. rewrite <- app_assoc. exact V2. }
  destruct r2 as [|e r3].
  - rewrite at_eof_ST. cbn [stopped]. rewrite push_ST. split.
    + cbn. rewrite !app_nil_r. list_eq.
    + do 2 f_equal. unfold ST, pre3, os3, os1. cbn. rewrite !app_nil_r. f_equal; try list_eq; len_eq.
  - destruct (is_eol e).
    + assert (V4 : vtok src ((pre3 ++ [e]) ++ r3)).
      { replace ((pre3 ++ [e]) ++ r3) with (pre3 ++ e :: r3) by list_eq. exact V3. }
      do_span pre3 [e] r3. rewrite push_ST. split.
      * cbn. rewrite !app_nil_r. list_eq.
      * do 2 f_equal. unfold ST, pre3, os3, os1. cbn. rewrite !app_nil_r. f_equal; try list_eq; len_eq.
    + rewrite at_eof_ST. destruct (stopped st (e :: r3)).
      * rewrite push_ST. split.
        -- cbn. rewrite !app_nil_r. list_eq.
        -- do 2 f_equal. unfold ST, pre3, os3, os1. cbn. rewrite !app_nil_r. f_equal; try list_eq; len_eq.
      * do 2 f_equal. unfold pre3, os3, os1. rewrite <- !app_assoc. rewrite set_pos_ST, truncate_ST. list_eq.
Qed.

Lemma covers_image : covers fimage.
Proof.
  intros st ts t rest H. unfold fimage in H. destruct ts as [|a r]; [discriminate|].
  destruct (is_bang a); [|discriminate].
  destruct (ftitle st r) as [[t1 r1]|] eqn:E1; [|discriminate].
  destruct (fdest st r1) as [[t2 r2]|] eqn:E2; [|discriminate].
  apply covers_delim in E1. apply covers_dest in E2. destruct E1 as [-> L1], E2 as [-> L2].
  destruct r2 as [|e r3].
  - injection H as <- <-. cbn. rewrite !app_nil_r. split; [list_eq|lia].
  - destruct (is_eol e).
    + injection H as <- <-. cbn. rewrite !app_nil_r. split; [list_eq|lia].
    + destruct (stopped st (e :: r3)); [|discriminate].
      injection H as <- <-. cbn. rewrite !app_nil_r. split; [list_eq|lia].
Qed.

(** Images. *)
Lemma fimages_loop_app : forall n st ts k rest, length ts < n -> fimages_loop n st ts = Some (k, rest) ->
  ts = yields k ++ rest.
Proof.
  induction n; intros st ts k rest Hn H; [lia|]. cbn [fimages_loop] in H.
  destruct ts as [|t r]; [injection H as <- <-; reflexivity|].
  destruct (fimage st (t :: r)) as [[x r1]|] eqn:E.
  - destruct (fimages_loop n st r1) as [[k' r']|] eqn:F; [|discriminate]. injection H as <- <-.
    apply covers_image in E. destruct E as [E L]. rewrite E.
    assert (LL : length (t :: r) = length (yield x) + length r1) by (rewrite E; apply app_length).
    apply IHn in F; [|lia]. rewrite F. cbn. unfold yields. list_eq.
  - destruct (stopped st (t :: r)); [|discriminate]. injection H as <- <-. reflexivity.
Qed.

Lemma images_loop_ST : forall f n ts src pre0 x st os y count,
  length ts < f -> length ts < n -> vtok src (pre0 ++ x ++ ts) ->
  images_loop f (length pre0) (length os) count (ST src (pre0 ++ x) ts st (os ++ y)) =
  match fimages_loop n st ts with
  | Some (k, rest) =>
      Ok (Some (count + length k), ST src (pre0 ++ x ++ yields k) rest st (os ++ y ++ flattens src k))
  | None => Ok (None, ST src pre0 (x ++ ts) st os)
  end.
Proof.
  induction f; intros n ts src pre0 x st os y count Hf Hn V; [lia|].
  destruct n; [lia|]. cbn [images_loop fimages_loop]. rewrite peek_ST.
  destruct ts as [|t r].
  { cbn [nth_error]. rewrite Nat.add_0_r, !app_nil_r. reflexivity. }
  cbn [nth_error].
  assert (V1 : vtok src ((pre0 ++ x) ++ t :: r)) by (apply vtok_step; exact V).
  pose proof (refines_image src (pre0 ++ x) (t :: r) st (os ++ y) V1) as H.
  destruct (fimage st (t :: r)) as [[z r1]|] eqn:E.
  - destruct H as [Hts H]. rewrite H. cbn [bind].
    apply covers_image in E. destruct E as [_ L].
    assert (LL : length (t :: r) = length (yield z) + length r1) by (rewrite Hts at 1; apply app_length).
    rewrite <- !app_assoc. rewrite (IHf n); try lia.
    2:{ rewrite <- app_assoc, <- Hts. exact V. }
    destruct (fimages_loop n st r1) as [[k rest]|].
    + do 2 f_equal.
      * f_equal. simpl. lia.
      * unfold ST. cbn. fold (yields k) (flattens src k). f_equal; try list_eq; len_eq.
    + do 2 f_equal. rewrite <- app_assoc, <- Hts. reflexivity.
  - rewrite H. cbn [bind]. rewrite at_eof_ST. destruct (stopped st (t :: r)).
    + rewrite Nat.add_0_r, !app_nil_r. reflexivity.
    + rewrite set_pos_ST, truncate_ST. reflexivity.
Qed.

Lemma refines_images : refines images fimages.
Proof.
  intros src pre ts st os V. unfold images, fimages. cbn [pos ops ST].
  assert (Lf : length ts < loop_fuel (ST src pre ts st os)).
  { unfold loop_fuel. cbn [tokens ST]. rewrite app_length. lia. }
  pose proof (images_loop_ST _ (S (length ts)) ts src pre [] st os [] 0 Lf (Nat.lt_succ_diag_r _) V) as H.
  rewrite !app_nil_r in H. cbn [app] in H. rewrite H. clear H.
  destruct (fimages_loop (S (length ts)) st ts) as [[k rest]|] eqn:F; [|reflexivity].
  apply fimages_loop_app in F; [|lia]. cbn [bind app].
  destruct k as [|z1 [|z2 k]].
  - cbn. rewrite !app_nil_r. cbn in F. subst rest. reflexivity.
  - cbn. cbn in F. rewrite app_nil_r in F. rewrite !app_nil_r. split; [exact F|reflexivity].
  - cbn [length Nat.add Nat.ltb Nat.leb]. rewrite insert_ST. cbn [bind]. rewrite push_ST. split.
    + rewrite F. cbn. rewrite app_nil_r. list_eq.
    + do 2 f_equal. unfold ST. cbn. rewrite app_nil_r. f_equal. list_eq.
Qed.

Lemma covers_images : covers fimages.
Proof.
  intros st ts t rest H. unfold fimages in H.
  destruct (fimages_loop (S (length ts)) st ts) as [[k r]|] eqn:F; [|discriminate].
  assert (L1 : forall x k', k = x :: k' -> 1 <= length (yield x)).
  { intros x k' ->. cbn [fimages_loop] in F. destruct ts as [|a l]; [discriminate|].
    destruct (fimage st (a :: l)) as [[z r1]|] eqn:E.
    - destruct (fimages_loop (length (a :: l)) st r1) as [[k2 r2]|]; [|discriminate].
      injection F as <- <- <-. apply covers_image in E. apply E.
    - destruct (stopped st (a :: l)); discriminate. }
  apply fimages_loop_app in F; [|lia].
  destruct k as [|x [|y k]]; [discriminate| |].
  - injection H as <- <-. cbn in F. rewrite app_nil_r in F. split; [exact F|eauto].
  - injection H as <- <-. specialize (L1 _ _ eq_refl). cbn. rewrite app_nil_r. split.
    + rewrite F. cbn. list_eq.
    + rewrite app_length. lia.
Qed.

(** Modifier. *)
Lemma refines_modifier : refines modifier fmodifier.
Proof.
  intros src pre ts st os V. unfold modifier, fmodifier. rewrite peek_ST. unfold nth_is.
  destruct (is_some_and col0 (nth_error ts 0)); [reflexivity|].
  rewrite eat_until_ST. destruct (until st is_eol_or_terminator ts) as [[[b c] rest]|] eqn:U; [|reflexivity].
  apply until_app in U. destruct U as [-> _]. cbn [bind].
  assert (V1 : vtok src ((pre ++ b ++ [c]) ++ rest)).
  { replace ((pre ++ b ++ [c]) ++ rest) with (pre ++ b ++ c :: rest) by list_eq. exact V. }
  do_span pre b (c :: rest). do_span (pre ++ b) [c] rest.
  rewrite !push_ST. split; [cbn; rewrite app_nil_r; list_eq|].
  do 2 f_equal. unfold ST. cbn. rewrite ?app_nil_r. f_equal; try list_eq. 
Qed.

Lemma covers_modifier : covers fmodifier.
Proof.
  intros st ts t rest H. unfold fmodifier in H. destruct (nth_is 0 col0 ts); [discriminate|].
  destruct (until st is_eol_or_terminator ts) as [[[b c] r]|] eqn:U; [|discriminate].
  injection H as <- <-. apply until_app in U. destruct U as [-> _]. cbn. rewrite app_nil_r. split; [list_eq|rewrite app_length; simpl; lia].
Qed.

(** Thematic break. *)
Lemma refines_break : refines thematic_break fbreak.
Proof.
  intros src pre ts st os V. unfold thematic_break, fbreak. rewrite eat_ST.
  destruct ts as [|t r]; [reflexivity|]. destruct (is_dash5 t); [|reflexivity].
  assert (V1 : vtok src ((pre ++ [t]) ++ r)).
  { replace ((pre ++ [t]) ++ r) with (pre ++ t :: r) by list_eq. exact V. }
  do_span pre [t] r. rewrite !push_ST. split; [reflexivity|]. do 2 f_equal. unfold ST. cbn. f_equal. list_eq.
Qed.
