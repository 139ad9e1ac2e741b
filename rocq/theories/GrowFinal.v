(** Writing a parsed document at most doubles the text. *)
From Coq Require Import String Lia.
From Verif Require Import Base Lexer LexSpec LexProofs LexFacts Ops Parser FParser Refine Refine2 Refine3
  Wf TokFacts Ast ToYamd Api StreamSpec StreamProofs StreamProofs2 TreeAst AstSpec AstProofs EscapeSpec Escapes Spaced Grow GrowTree.
Open Scope list_scope.

Lemma grow : forall size, (forall c, 1 <= size c) -> (forall c, utf8_len c = 1 -> size c = 1) ->
  forall s y, deserialize s = Ok y -> sz size (display_yamd y) <= 2 * sz size (unescape s).
Proof.
  intros size P A s y H. rewrite deserialize_eq in H. injection H as <-. destruct (fparse_wf (spec_tokens s)) as [W T].
  pose proof (tree_top size P A s _ W (fparse_airy _) T (fparse_linked s)) as K.
  rewrite (flips_ttexts s _ _ (proj2 (parse_refines s))), spec_texts in K.
  pose proof (document_cost size P A (document_of s) _ (doc_list s) (document_written _)) as D. unfold document_of in *. lia.
Qed.
Lemma sz_bytes : forall x, sz utf8_len x = byte_len x.
Proof. induction x as [|c x IH]; [reflexivity|]. rewrite sz_cons, IH. reflexivity. Qed.
Lemma sz_chars : forall x, sz (fun _ => 1) x = List.length x.
Proof. induction x as [|c x IH]; [reflexivity|]. rewrite sz_cons, IH. reflexivity. Qed.
Lemma unescape_sz : forall size x, sz size (unescape x) <= sz size x.
Proof.
  intros size x. enough (E : forall n x, List.length x <= n -> sz size (unescape x) <= sz size x) by (exact (E _ x (le_n _))).
  clear x. induction n as [|n IH]; intros [|c x] H; cbn [List.length] in H; try (cbn; lia). cbn [unescape]. destruct (char_eqb c c_bslash).
  - destruct x as [|d x]; [cbn; lia|]. cbn [List.length] in H. rewrite !sz_cons. pose proof (IH x ltac:(lia)). lia.
  - rewrite !sz_cons. pose proof (IH x ltac:(lia)). lia.
Qed.

Lemma grow_unescaped : forall s y, deserialize s = Ok y ->
  byte_len (display_yamd y) <= 2 * byte_len (unescape s) /\ List.length (display_yamd y) <= 2 * List.length (unescape s).
Proof.
  intros s y H. rewrite <- !sz_bytes, <- !sz_chars. split; apply grow; auto. exact utf8_len_pos.
Qed.
Lemma grow_source : forall s y, deserialize s = Ok y ->
  byte_len (display_yamd y) <= 2 * byte_len s /\ List.length (display_yamd y) <= 2 * List.length s.
Proof.
  intros s y H. apply grow_unescaped in H. pose proof (unescape_sz utf8_len s) as A. pose proof (unescape_sz (fun _ => 1) s) as B.
  rewrite !sz_bytes in A. rewrite !sz_chars in B. lia.
Qed.

(** ** Texts that double *)

Definition tildes (n : nat) : str := repeat c_tilde n.
Lemma tildes_run : forall n, char_run c_tilde (tildes n) = (tildes n, []).
Proof. induction n as [|n IH]; [reflexivity|]. unfold tildes in *. cbn [repeat char_run]. rewrite IH. reflexivity. Qed.
Lemma tildes_tokens : forall n, spec_tokens (tildes (S n)) = [mk_token Tilde 0 (S n) (mk_pos 0 0 0) false].
Proof.
  intros n. unfold spec_tokens, pieces, raw_pieces.
  assert (E : scan_one (tildes (S n)) = Some (mk_piece Tilde (tildes (S n)) false, [])).
  { unfold tildes. cbn [repeat scan_one]. replace (pair_kind c_tilde (repeat c_tilde n)) with (@None (token_kind * str)) by (destruct n; reflexivity).
    change (char_eqb c_tilde c_bslash) with false. cbv iota. change (run_kind c_tilde) with (Some Tilde). cbv iota. change (repeat c_tilde n) with (tildes n). rewrite tildes_run. reflexivity. }
  unfold tildes at 1. rewrite repeat_length. cbn [scan]. rewrite E. replace (scan n []) with (@nil piece) by (destruct n; reflexivity). cbn [merge annotate p_kind p_text p_esc].
  unfold tildes. rewrite byte_len_repeat. change (utf8_len c_tilde) with 1. f_equal. f_equal; lia.
Qed.
Lemma tildes_plain : forall n, unescape (tildes n) = tildes n.
Proof. induction n as [|n IH]; [reflexivity|]. change (unescape (tildes (S n))) with (c_tilde :: unescape (tildes n)). rewrite IH. reflexivity. Qed.
Lemma tildes_document : forall n, deserialize (tildes (3 + n)) = Ok (mk_yamd None [YParagraph [PText (tildes (3 + n))]]).
Proof.
  intros n. rewrite deserialize_eq. unfold document_of. pose proof (spec_texts (tildes (3 + n))) as T. rewrite tildes_plain in T.
  pose proof (tildes_tokens (2 + n)) as F. change (S (2 + n)) with (3 + n) in F. rewrite F in *. change (3 + n) with (S (2 + n)) in *. set (t := mk_token Tilde 0 (S (2 + n)) (mk_pos 0 0 0) false) in *.
  assert (E : fparse [t] = [Node NDocument [] [Node NParagraph [] [Leaf [t]] []] []]) by (vm_compute; reflexivity).
  rewrite E. unfold doc_of, body_of. cbn [child_text flat_map child node_eq_dec option_map app blocks pars_of par_of map]. rewrite T. reflexivity.
Qed.
Lemma tildes_text : forall n, display_text (tildes n) = flat_map (fun _ => [c_bslash; c_tilde]) (tildes n).
Proof.
  intros n. apply (par_unique (PText (tildes n))); [apply par_written|]. cbn [par_text]. unfold tildes.
  induction n as [|n IH]; [constructor|]. cbn [repeat flat_map app]. apply w_char; [cbn; tauto|exact IH].
Qed.
Lemma tildes_double : forall n, 3 <= n -> exists s y, List.length s = n /\ byte_len s = n /\ deserialize s = Ok y
  /\ List.length (display_yamd y) = 2 * n /\ byte_len (display_yamd y) = 2 * n.
Proof.
  intros n H. replace n with (3 + (n - 3)) by lia. generalize (n - 3). clear n H. intros n. exists (tildes (3 + n)). eexists.
  split; [apply repeat_length|]. split; [unfold tildes; rewrite byte_len_repeat; change (utf8_len c_tilde) with 1; lia|]. split; [apply tildes_document|].
  unfold display_yamd, display_body. cbn [metadata body map join display_block]. unfold display_paragraph. cbn [flat_map display_par_node]. rewrite tildes_text, app_nil_r.
  assert (E : escape_leading_block_marker (flat_map (fun _ => [c_bslash; c_tilde]) (tildes (3 + n))) = flat_map (fun _ => [c_bslash; c_tilde]) (tildes (3 + n))) by reflexivity.
  rewrite E. clear E. generalize (3 + n). clear n. unfold tildes. intros n. split; induction n as [|n IH]; cbn [repeat flat_map app List.length byte_len]; try reflexivity;
  [rewrite IH; lia|]. change (utf8_len c_bslash) with 1. change (utf8_len c_tilde) with 1. rewrite IH. lia.
Qed.
