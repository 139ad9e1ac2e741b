(** Families of inputs with as many ops, and as many nodes, as the bounds allow. *)
From Coq Require Import String Lia.
From Verif Require Import Base Lexer LexSpec LexProofs LexFacts Ops Parser FParser Refine Refine2 Refine3
  Wf TokFacts Ast ToYamd Api StreamSpec StreamProofs TreeAst LocalSpec Local SizeSpec Size.
Open Scope list_scope.

(** ** A highlight with [m] blank lines *)
Fixpoint blanks (m : nat) : str := match m with 0 => [c_bang; c_bang] | S m => c_nl :: c_nl :: blanks m end.
Definition hollow (m : nat) : str := c_bang :: c_bang :: c_space :: blanks (S m).
Definition bangs : piece := mk_piece Bang [c_bang; c_bang] false.
Definition gap : piece := mk_piece Space [c_space] false.
Definition line : piece := mk_piece Eol [c_nl] false.
Definition empty_line : piece := mk_piece Terminator [c_nl; c_nl] false.
Fixpoint raw_blanks (m : nat) : list piece := match m with 0 => [bangs] | S m => line :: line :: raw_blanks m end.
Lemma scan_step : forall n x p r, scan_one x = Some (p, r) -> scan (S n) x = p :: scan n r.
Proof. intros n x p r E. cbn [scan]. rewrite E. reflexivity. Qed.
Lemma blanks_length : forall m, List.length (blanks m) = 2 * m + 2.
Proof. induction m as [|m IH]; [reflexivity|]. cbn [blanks List.length]. lia. Qed.
Lemma blanks_scan : forall m n, 2 * m + 2 <= n -> scan n (blanks m) = raw_blanks m.
Proof.
  induction m as [|m IH]; intros n L; [destruct n as [|[|n]]; try lia; destruct n; reflexivity|].
  destruct n as [|[|n]]; try lia. cbn [blanks raw_blanks].
  assert (E1 : scan_one (c_nl :: c_nl :: blanks m) = Some (line, c_nl :: blanks m)) by reflexivity.
  assert (E2 : scan_one (c_nl :: blanks m) = Some (line, blanks m)) by (destruct m; reflexivity).
  rewrite (scan_step _ _ _ _ E1), (scan_step _ _ _ _ E2). do 2 f_equal. apply IH. lia.
Qed.
Lemma blanks_merge : forall m, merge (raw_blanks m) = repeat empty_line m ++ [bangs].
Proof. induction m as [|m IH]; [reflexivity|]. cbn [raw_blanks repeat app]. rewrite <- IH. reflexivity. Qed.
Lemma hollow_pieces : forall m, pieces (hollow m) = bangs :: gap :: repeat empty_line (S m) ++ [bangs].
Proof.
  intros m. unfold pieces, raw_pieces, hollow. cbn [List.length]. rewrite blanks_length.
  assert (E1 : scan_one (c_bang :: c_bang :: c_space :: blanks (S m)) = Some (bangs, c_space :: blanks (S m))) by reflexivity.
  assert (E2 : scan_one (c_space :: blanks (S m)) = Some (gap, blanks (S m))) by reflexivity.
  rewrite (scan_step _ _ _ _ E1), (scan_step _ _ _ _ E2), blanks_scan by lia. rewrite <- blanks_merge. reflexivity.
Qed.
(** The tokens: blank lines at the start of a line, then the closing. *)
Inductive empties : nat -> list token -> Prop :=
| empties_end : forall t, is_two_bangs t = true -> empties 0 [t]
| empties_line : forall m t ts, is_terminator t = true -> col0 t = true -> empties m ts -> empties (S m) (t :: ts).
Lemma empties_annotate : forall m o r, empties m (annotate o 0 r (repeat empty_line m ++ [bangs])).
Proof.
  induction m as [|m IH]; intros o r; cbn [repeat app annotate].
  - apply empties_end. unfold is_two_bangs, tlen, col0. cbn [kind kind_eqb t_pos column t_start t_end andb Nat.eqb bangs p_kind p_text p_esc]. apply Nat.eqb_eq.
    change (byte_len [c_bang; c_bang]) with 2. lia.
  - apply empties_line; [reflexivity|reflexivity|]. apply IH.
Qed.
Lemma hollow_tokens : forall m, exists a b t ts, spec_tokens (hollow m) = a :: b :: t :: ts /\ is_two_bangs a = true /\ is_space_1 b = true /\ is_eol b = false
  /\ is_terminator t = true /\ col0 t = false /\ empties m ts.
Proof.
  intros m. unfold spec_tokens. rewrite hollow_pieces. cbn [repeat app annotate]. do 4 eexists. split; [reflexivity|]. repeat split. apply empties_annotate.
Qed.
Lemma empties_length : forall m ts, empties m ts -> len ts = m + 1.
Proof. intros m ts H. induction H; cbn [List.length]; lia. Qed.
Lemma terminator_not_bangs : forall t, is_terminator t = true -> is_two_bangs t = false /\ is_one_bang t = false.
Proof. intros t H. unfold is_terminator, is_two_bangs, is_one_bang in *. apply kind_eqb_eq in H. rewrite H. split; reflexivity. Qed.
Lemma bangs_not : forall t, is_two_bangs t = true -> is_terminator t = false /\ is_one_bang t = false /\ col0 t = true /\ kind t = Bang.
Proof.
  intros t H. unfold is_two_bangs in H. apply andb_true_iff in H. destruct H as [H L]. apply andb_true_iff in H. destruct H as [K C]. apply kind_eqb_eq in K. apply Nat.eqb_eq in L.
  unfold is_terminator, is_one_bang. rewrite K, L. cbn. rewrite andb_false_r. auto.
Qed.
Lemma empties_stopped : forall m ts, empties m ts -> stopped [StopTerminator; StopHighlightEnd] ts = true.
Proof. intros m ts H. destruct H as [t B|m t ts T _ _]; unfold stopped; cbn [existsb fmatches nth_is nth_error is_some_and]; [rewrite B|rewrite T]; rewrite ?orb_true_r; reflexivity. Qed.
Lemma empties_loop : forall m ts n, empties m ts -> len ts < n -> exists k c, fhighlight_loop n [] ts = Some (k, c, []) /\ nopss k = 3 * m.
Proof.
  intros m ts n H. revert n. induction H as [t B|m t ts T C H IH]; intros n L; (destruct n; [lia|]); cbn [fhighlight_loop stopped existsb].
  - rewrite B. exists [], [t]. split; reflexivity.
  - destruct (terminator_not_bangs t T) as [-> _]. rewrite T. unfold fparagraph. cbn [fitems]. rewrite (empties_stopped _ _ H). cbn [leaf].
    cbn [List.length] in L. destruct (IH n ltac:(lia)) as (k & c & -> & E). do 2 eexists. split; [reflexivity|]. cbn [app]. rewrite !nopss_cons. cbn [nops map list_sum fold_right]. unfold list_sum in *. lia.
Qed.
Lemma empties_head : forall m ts, empties m ts -> nth_is 0 col0 ts = true /\ nth_is 0 is_one_bang ts = false.
Proof. intros m ts H. destruct H as [t B|m t ts T C _]; unfold nth_is; cbn [nth_error is_some_and]; [destruct (bangs_not t B) as (_ & X & Y & _); auto|]. destruct (terminator_not_bangs t T). auto. Qed.
Lemma hollow_ops : forall m, exists ops, parse (hollow m) = Ok ops /\ List.length ops = 3 * m + 7 /\ len (spec_tokens (hollow m)) = m + 4.
Proof.
  intros m. destruct (parse_refines (hollow m)) as [E _]. eexists. split; [exact E|]. rewrite nopss_flattens.
  destruct (hollow_tokens m) as (a & b & t & ts & -> & A & B & B' & T & C & H).
  destruct (bangs_not a A) as (A1 & _ & A3 & A4). destruct (empties_head _ _ H) as [H1 H2]. destruct (empties_loop m ts (S (len ts)) H ltac:(lia)) as (k & c & L & N).
  pose proof (empties_length _ _ H) as LL. split; [|cbn [List.length]; lia].
  assert (HL : fhighlight [] (a :: b :: t :: ts) = Some (Node NHighlight [a; b] (Node NModifier [] [Leaf []] [t] :: k) c, [])).
  { unfold fhighlight. cbn [fseq]. rewrite A, B. cbn [orb fseq]. cbv zeta. cbn [last]. rewrite B'. cbn [negb].
    unfold fmodifier. unfold nth_is at 1. cbn [nth_error is_some_and]. rewrite C. cbn [until stopped existsb].
    assert (X : is_eol_or_terminator t = true) by (unfold is_eol_or_terminator, is_terminator in *; rewrite T; apply orb_true_r). rewrite X. cbn [opt_tree].
    assert (IC : ficon [StopTerminator] ts = None).
    { unfold ficon. cbn [fseq]. destruct ts as [|u ts']; [reflexivity|]. unfold nth_is in H2. cbn [nth_error is_some_and] in H2. rewrite H2. reflexivity. }
    rewrite IC. cbn [opt_tree]. rewrite H1, L. reflexivity. }
  assert (KC : fcode [] (a :: b :: t :: ts) = None).
  { unfold fcode, ffence. cbn [fseq]. assert (is_backtick3 a = false) as -> by (unfold is_backtick3; rewrite A4; reflexivity). reflexivity. }
  assert (KE : fembed [] (a :: b :: t :: ts) = None) by (unfold fembed; assert (is_left_curly2 a = false) as -> by (unfold is_left_curly2; rewrite A4; reflexivity); reflexivity).
  assert (KM : fmetadata [] (a :: b :: t :: ts) = None) by (unfold fmetadata, fdelim; assert (is_three_dashes a = false) as -> by (unfold is_three_dashes; rewrite A4; reflexivity); reflexivity).
  assert (KS : is_collapsible_start a = false) by (unfold is_collapsible_start; rewrite A4; reflexivity).
  unfold fparse. rewrite KM. cbn [opt_tree]. cbn [List.length]. replace (3 * S (S (S (len ts))) + 5) with (S (S (S (3 * len ts + 11)))) by lia.
  cbn [fdoc stopped existsb]. rewrite A1, KC. cbn [fcollapsible fseq]. rewrite KS. unfold forelse. rewrite KE, HL. cbn [fdoc app].
  rewrite nopss_cons. cbn [nops map list_sum fold_right]. unfold list_sum in N. lia.
Qed.

(** ** Paragraphs of one letter *)
Definition letter : char := 97%N.
Fixpoint letters (m : nat) : str := match m with 0 => [letter] | S m => letter :: c_nl :: c_nl :: letters m end.
Definition word : piece := mk_piece Literal [letter] false.
Fixpoint raw_letters (m : nat) : list piece := match m with 0 => [word] | S m => word :: line :: line :: raw_letters m end.
Fixpoint letter_pieces (m : nat) : list piece := match m with 0 => [word] | S m => word :: empty_line :: letter_pieces m end.
Lemma letters_length : forall m, List.length (letters m) = 3 * m + 1.
Proof. induction m as [|m IH]; [reflexivity|]. cbn [letters List.length]. lia. Qed.
Lemma letters_scan : forall m n, 3 * m + 1 <= n -> scan n (letters m) = raw_letters m.
Proof.
  induction m as [|m IH]; intros n L; [destruct n as [|n]; try lia; destruct n; reflexivity|].
  destruct n as [|[|[|n]]]; try lia. cbn [letters raw_letters].
  assert (E1 : scan_one (letter :: c_nl :: c_nl :: letters m) = Some (word, c_nl :: c_nl :: letters m)) by reflexivity.
  assert (E2 : scan_one (c_nl :: c_nl :: letters m) = Some (line, c_nl :: letters m)) by reflexivity.
  assert (E3 : scan_one (c_nl :: letters m) = Some (line, letters m)) by (destruct m; reflexivity).
  rewrite (scan_step _ _ _ _ E1), (scan_step _ _ _ _ E2), (scan_step _ _ _ _ E3). do 3 f_equal. apply IH. lia.
Qed.
Lemma letters_merge : forall m, merge (raw_letters m) = letter_pieces m.
Proof. induction m as [|m IH]; [reflexivity|]. cbn [raw_letters letter_pieces]. rewrite <- IH. reflexivity. Qed.
Lemma annotate_length : forall l o c r, len (annotate o c r l) = List.length l.
Proof. induction l as [|p l IH]; intros o c r; [reflexivity|]. cbn [annotate List.length]. f_equal. apply IH. Qed.
Lemma letters_tokens : forall m, len (spec_tokens (letters m)) = 2 * m + 1.
Proof.
  intros m. unfold spec_tokens, pieces, raw_pieces. rewrite annotate_length, letters_length, letters_scan, letters_merge by lia.
  induction m as [|m IH]; [reflexivity|]. cbn [letter_pieces List.length]. lia.
Qed.
Lemma letters_join : forall m, letters m = join_blank (repeat [letter] (S m)).
Proof. induction m as [|m IH]; [reflexivity|]. cbn [letters]. rewrite IH. reflexivity. Qed.
Lemma letters_document : forall m, deserialize (letters m) = Ok (mk_yamd None (repeat (YParagraph [PText [letter]]) (S m))).
Proof.
  intros m. rewrite letters_join. set (d := mk_yamd None [YParagraph [PText [letter]]]).
  rewrite (parts_read (repeat [letter] (S m)) (repeat d (S m))).
  - f_equal. f_equal. induction m as [|m IH]; [reflexivity|]. cbn [repeat flat_map] in *. rewrite IH. reflexivity.
  - induction (S m) as [|n IH]; cbn [repeat]; constructor; [|exact IH]. split; [vm_compute; reflexivity|]. split; [|reflexivity]. split; [reflexivity|].
    intros x c E. destruct x as [|a [|b x]]; injection E as E; [subst; split; discriminate| |]; subst; discriminate.
  - cbn [repeat tl]. induction m as [|n IH]; cbn [repeat]; constructor; [reflexivity|exact IH].
Qed.
Lemma letters_nodes : forall m, exists y, deserialize (letters m) = Ok y /\ doc_nodes y = 2 * m + 2 /\ len (spec_tokens (letters m)) = 2 * m + 1.
Proof.
  intros m. eexists. split; [apply letters_document|]. split; [|apply letters_tokens]. unfold doc_nodes. cbn [body].
  induction m as [|m IH]; [reflexivity|]. cbn [repeat map list_sum fold_right] in *. rewrite IH. change (block_nodes (YParagraph [PText [letter]])) with 2. lia.
Qed.
