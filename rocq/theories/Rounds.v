(** Formatting again and again: no fixed number of rounds reaches a text that stays (property C75). *)
From Coq Require Import Lia String List.
From Verif Require Import Base Lexer LexSpec LexProofs LexFacts Ops Parser FParser Refine Refine2 Refine3 Wf TokFacts ToYamd TreeAst Ast Api StreamSpec AstSpec Tame Settled Mild Units ULex Stops Inline AstUnits Calm Blocks Docs Highlight Lists UBlocks UList UDocs Tame TameDec UDocs Docs TreeAst Api Unsettled Plain Escapes RoundsSpec.
Open Scope list_scope.
Import ListNotations.

(** ** Metadata of backslashes *)

Definition slashes (k : nat) : str := repeat c_bslash k.
(** The text of a document with [k] backslashes as its metadata. *)
Definition slash_text (k : nat) : str := s_ "---" ++ nl ++ slashes k ++ nl ++ s_ "---" ++ nlnl.

Lemma slashes_end : forall k, ends_with_char c_nl (slashes k) = false.
Proof. intros k. apply ends_char_false. intros (r & E). assert (X : In c_nl (slashes k)) by (rewrite E; apply in_app_iff; right; left; reflexivity). apply repeat_spec in X. discriminate X. Qed.
Lemma slash_display : forall k, display_yamd (mk_yamd (Some (slashes k)) []) = slash_text k.
Proof. intros k. unfold display_yamd. cbn [metadata body]. rewrite slashes_end. reflexivity. Qed.
Lemma render_slashes : forall k, render (repeat (escd c_bslash) k) = slashes (2 * k).
Proof. induction k as [|k IH]; [reflexivity|]. replace (2 * S k) with (S (S (2 * k))) by lia. cbn [repeat]. change (render (escd c_bslash :: repeat (escd c_bslash) k)) with (c_bslash :: c_bslash :: render (repeat (escd c_bslash) k)). rewrite IH. reflexivity. Qed.
Lemma chars_slashes : forall k, chars (repeat (escd c_bslash) k) = slashes k.
Proof. induction k as [|k IH]; [reflexivity|]. cbn [repeat]. change (chars (escd c_bslash :: repeat (escd c_bslash) k)) with (c_bslash :: chars (repeat (escd c_bslash) k)). rewrite IH. reflexivity. Qed.
Lemma slash_fine : forall k, fine (repeat (escd c_bslash) k).
Proof.
  intros k. split; [apply Forall_forall; intros u Hu; apply repeat_spec in Hu; subst u; discriminate|]. intros X. apply repeat_spec in X. discriminate X.
Qed.

(** Reading halves them. *)
Lemma slash_read : forall k, deserialize (slash_text (2 * k)) = Ok (mk_yamd (Some (slashes k)) []).
Proof.
  intros k. rewrite deserialize_eq. f_equal. set (W := raw c_nl :: repeat (escd c_bslash) k ++ [raw c_nl]).
  assert (R : slash_text (2 * k) = render (dash3 ++ W ++ dash3 ++ raw c_nl :: raw c_nl :: ujoin (map fst (@nil (list uchar * list ynode))))).
  { unfold W. change (raw c_nl :: repeat (escd c_bslash) k ++ [raw c_nl]) with ([raw c_nl] ++ repeat (escd c_bslash) k ++ [raw c_nl]). rewrite !render_app, render_slashes. rewrite <- !app_assoc. reflexivity. }
  rewrite R, document_meta.
  - unfold W. change (chars (raw c_nl :: repeat (escd c_bslash) k ++ [raw c_nl])) with (c_nl :: chars (repeat (escd c_bslash) k ++ [raw c_nl])). rewrite chars_app, chars_slashes. change (chars [raw c_nl]) with [c_nl].
    rewrite trim_both_meta; [reflexivity| |].
    + intros (r & E). assert (X : In c_nl (slashes k)) by (rewrite E; left; reflexivity). apply repeat_spec in X. discriminate X.
    + intros (r & E). assert (X : In c_nl (slashes k)) by (rewrite E; apply in_app_iff; right; left; reflexivity). apply repeat_spec in X. discriminate X.
  - apply fine_app. split; [apply fine_lit; reflexivity|]. apply fine_app. split; [|apply fine_lit; reflexivity].
    unfold W. change (raw c_nl :: repeat (escd c_bslash) k ++ [raw c_nl]) with ([raw c_nl] ++ repeat (escd c_bslash) k ++ [raw c_nl]). apply fine_app. split; [apply fine_lit; reflexivity|]. apply fine_app. split; [apply slash_fine|apply fine_lit; reflexivity].
  - constructor.
  - exact I.
  - reflexivity.
  - exists (raw c_nl :: repeat (escd c_bslash) k). reflexivity.
  - intros A1 A2 E N _. apply Nat.eqb_neq. destruct A2 as [|u A2]; [congruence|]. assert (X : In u W) by (unfold W in *; rewrite E; apply in_app_iff; right; left; reflexivity).
    assert (Y : negb (fst u) && char_eqb (snd u) c_minus = false).
    { unfold W in X. destruct X as [<-|X]; [reflexivity|]. apply in_app_iff in X. destruct X as [X|[<-|[]]]; [apply repeat_spec in X; subst u; reflexivity|reflexivity]. }
    cbn [lead]. rewrite Y. discriminate.
Qed.
Lemma slash_format : forall k, format (slash_text (2 * k)) = Ok (slash_text k).
Proof. intros k. unfold format. rewrite slash_read. cbn [bind]. rewrite slash_display. reflexivity. Qed.

Lemma slash_rounds : forall n k, rounds n (slash_text (2 ^ n * k)) = Ok (slash_text k).
Proof.
  induction n as [|n IH]; intros k; cbn [rounds]; [rewrite Nat.mul_1_l; reflexivity|]. replace (2 ^ S n * k) with (2 * (2 ^ n * k)) by (cbn [Nat.pow]; lia). rewrite slash_format. cbn [bind]. apply IH.
Qed.
Lemma slash_text_inj : forall j k, slash_text j = slash_text k -> j = k.
Proof. intros j k E. apply (f_equal (@List.length char)) in E. unfold slash_text in E. rewrite !app_length in E. unfold slashes in E. rewrite !repeat_length in E. cbn in E. lia. Qed.

Theorem rounds_differ : forall n, exists s, List.length s = 2 ^ n + 10 /\ forall i, i <= n -> rounds i s = Ok (slash_text (2 ^ (n - i))).
Proof.
  intros n. exists (slash_text (2 ^ n)). split; [unfold slash_text; rewrite !app_length; unfold slashes; rewrite repeat_length; cbn; lia|].
  intros i Hi. replace n with (i + (n - i)) at 1 by lia. rewrite Nat.pow_add_r. apply slash_rounds.
Qed.
Theorem rounds_unbounded : forall n, exists s, List.length s = 2 ^ n + 10 /\ forall i j, i < j <= n -> rounds i s <> rounds j s.
Proof.
  intros n. destruct (rounds_differ n) as (s & L & H). exists s. split; [exact L|]. intros i j [Hi Hj] E. rewrite (H i), (H j) in E by lia. assert (E1 : slash_text (2 ^ (n - i)) = slash_text (2 ^ (n - j))) by congruence. clear E. rename E1 into E. apply slash_text_inj in E.
  apply Nat.pow_inj_r in E; lia.
Qed.
Theorem rounds_total : forall n s, exists t, rounds n s = Ok t.
Proof.
  induction n as [|n IH]; intros s; [exists s; reflexivity|]. cbn [rounds]. unfold format. rewrite deserialize_eq. cbn [bind]. apply IH.
Qed.

(** ** Code that starts with line feeds *)

(** The blank line after the fence is one token, so reading drops one line feed. *)
Lemma code_shift : forall n lang code, ~ In c_cr lang -> ~ In c_cr code -> ~ ends_with_nl code -> is_block n (u_codeblock lang (c_nl :: code), [YCode lang code]).
Proof.
  intros n lang code M1 M2 M3. split; [apply starts_raw; discriminate|]. cbn [fst snd]. intros s ts B fuel H TB Hend Hf.
  assert (Ea : aft true (u_codeblock lang (c_nl :: code)) = false) by (unfold u_codeblock; rewrite !aft_app; reflexivity). rewrite Ea. unfold u_codeblock in H. rewrite <- !app_assoc in H.
  assert (A1 : absent c_nl (u_lang lang)) by (unfold u_lang; keeps). assert (A2 : absent c_backtick (u_lang lang)) by (unfold u_lang; keeps).
  assert (X : exists uc', u_code (c_nl :: code) = raw c_nl :: uc' /\ chars uc' = code).
  { pose proof (u_code_chars (c_nl :: code)) as C. destruct (u_code (c_nl :: code)) as [|[e d] uc'] eqn:U; [discriminate|]. injection C as -> C. exists uc'. destruct e; [|auto]. exfalso.
    assert (Y : In (escd c_nl) (u_code (c_nl :: code))) by (rewrite U; left; reflexivity). revert Y. unfold u_code, fences. intros Y. apply escd_umark in Y. destruct Y as [Y|Y]; [apply u0_escd in Y; discriminate|]. cbn in Y. repeat (destruct Y as [Y|Y]; [discriminate|]). destruct Y. }
  destruct X as (uc & EU & Cu). pose proof (fences_left (u0 (c_nl :: code))) as FL. fold (u_code (c_nl :: code)) in FL. rewrite EU in FL.
  assert (He : ~ ends c_nl uc) by (intros (q & Q); apply M3; rewrite <- Cu, Q, chars_app; exists (chars q); reflexivity).
  assert (Hfe : fenced uc).
  { intros a b Q. subst uc. destruct (FL (raw c_nl :: a) b eq_refl) as (a' & u & Q1 & Q2). destruct a' as [|v a']; [injection Q1 as <- _; discriminate|]. injection Q1 as _ ->. eauto. }
  rewrite EU in H. pose proof (u_lang_chars lang) as Cl. set (ul := u_lang lang) in *.
  assert (NB : raw_at c_backtick (ul ++ [raw c_nl] ++ (raw c_nl :: uc) ++ [raw c_nl] ++ fence ++ B) = false).
  { destruct ul as [|u ul']; [reflexivity|]. apply (absent_raw_at c_backtick (u :: ul') A2). }
  destruct (cov_runs _ _ _ c_backtick Backtick 2 _ H eq_refl ltac:(left; discriminate) NB) as (t & ts' & -> & E1 & E2 & E3 & E4 & E5). change (aft true (repeat (raw c_backtick) 3)) with false in E5.
  assert (Bt : is_backtick3 t = true) by (unfold is_backtick3; rewrite E1, E2, E3; reflexivity).
  change (ul ++ [raw c_nl] ++ (raw c_nl :: uc) ++ [raw c_nl] ++ fence ++ B) with (ul ++ [raw c_nl; raw c_nl] ++ uc ++ [raw c_nl] ++ fence ++ B) in E5.
  destruct (modifier_units s [] ts' ul [raw c_nl; raw c_nl] _ E5 A1 ltac:(right; reflexivity) ltac:(apply calm_none) eq_refl) as (b & c & r1 & G1 & G2 & G3 & G4). rewrite app_assoc in G4.
  destruct (code_body s n r1 uc (uc ++ [raw c_nl]) B G4 ltac:(right; reflexivity) He Hfe TB) as (b2 & c2 & r2 & cl & rest & Y1 & Y2 & Y3 & Y4 & Y5 & Y6).
  assert (Ff : ffence (t :: ts') = Some ([t], ts')).
  { unfold ffence. cbn [fseq]. rewrite Bt. destruct (cov_cons_inv _ _ _ _ E5) as (w & ts2 & ->); [destruct ul; discriminate|]. replace (is_eol w) with false; [reflexivity|]. symmetry. unfold is_eol. rewrite (eol_test _ _ _ _ _ E5).
    destruct ul as [|u ul']; [reflexivity|]. rewrite (raw_app c_nl (u :: ul')) by discriminate. rewrite (absent_raw_at _ _ A1). reflexivity. }
  exists (Node NCode [t] ([Node NModifier [] [Leaf b] [c]] ++ [Leaf b2]) cl), t, ((b ++ [c]) ++ b2 ++ cl), rest.
  unfold fblock, fcode. rewrite Ff. cbn [last]. unfold is_eol. rewrite E1. change (kind_eqb Backtick Eol) with false. cbn [negb]. rewrite G1. cbn [opt_tree]. rewrite Y1, Y2. split; [reflexivity|].
  split; [rewrite G2, Y3, <- !app_assoc; reflexivity|]. split; [|exact Y6].
  cbn [blocks app]. rewrite child_text_hd. cbn [text_or_empty inner flat_map]. rewrite !app_nil_r, Y5, G3, Cl, chars_app, Cu. change (chars [raw c_nl]) with [c_nl]. cbn [app]. rewrite trim_end_nl, trim_end_keep by exact M3. reflexivity.
Qed.

Definition one_code (lang code : str) : yamd := mk_yamd None [YCode lang code].
Definition feeds (k : nat) (code : str) : str := repeat c_nl k ++ code.

Lemma code_display : forall lang code, display_yamd (one_code lang code) = render (u_codeblock lang code).
Proof. intros lang code. exact (u_codeblock_render lang code). Qed.
Lemma code_read : forall lang code, ~ In c_cr lang -> ~ In c_cr code -> ~ ends_with_nl code -> deserialize (display_yamd (one_code lang (c_nl :: code))) = Ok (one_code lang code).
Proof.
  intros lang code M1 M2 M3. rewrite deserialize_eq, code_display. f_equal. pose proof (document_plain [(u_codeblock lang (c_nl :: code), [YCode lang code])]) as D. cbn [map fst snd ujoin flat_map app] in D.
  rewrite app_nil_r in D. apply D.
  - apply code_fine; [exact M1|]. intros [X|X]; [discriminate X|exact (M2 X)].
  - constructor; [|constructor]. apply code_shift; assumption.
  - exact I.
  - reflexivity.
Qed.
Lemma feeds_tame : forall lang code k, tame_code lang code -> ~ In c_cr lang /\ ~ In c_cr (feeds k code) /\ (code <> [] -> ~ ends_with_nl (feeds k code)).
Proof.
  intros lang code k (T1 & T2 & T3 & T4). split; [exact T1|]. split.
  - unfold feeds. rewrite in_app_iff. intros [X|X]; [apply repeat_spec in X; discriminate X|exact (T2 X)].
  - intros N (r & E). apply T4. destruct (exists_last N) as (q & c & ->). unfold feeds in E. rewrite app_assoc in E. apply app_inj_tail in E. destruct E as [_ ->]. exists q. reflexivity.
Qed.
(** It takes one round for each line feed in front of the code. *)
Theorem code_rounds : forall lang code, tame_code lang code -> code <> [] -> forall k i, rounds i (display_yamd (one_code lang (feeds k code))) = Ok (display_yamd (one_code lang (feeds (k - i) code))).
Proof.
  intros lang code T N k i. revert k. induction i as [|i IH]; intros k; [rewrite Nat.sub_0_r; reflexivity|]. cbn [rounds]. unfold format. destruct k as [|k].
  - change (feeds 0 code) with code in *. assert (D : deserialize (display_yamd (one_code lang code)) = Ok (one_code lang code)).
    { apply round_trip. split; [exact I|]. split; [constructor; [exact T|constructor]|exact I]. }
    rewrite D. cbn [bind]. exact (IH 0).
  - destruct (feeds_tame lang code k T) as (F1 & F2 & F3). change (feeds (S k) code) with (c_nl :: feeds k code). rewrite code_read by auto. cbn [bind]. exact (IH k).
Qed.
(** So there is no fixed number of rounds for sources without escapes either. *)
Lemma replace_off : forall c p r x, ~ In c x -> replace (c :: p) r x = x.
Proof.
  intros c p r. induction x as [|d x IH]; intros H; [reflexivity|]. rewrite replace_miss; [rewrite IH by (intros X; apply H; right; exact X); reflexivity|].
  intros z Z. injection Z as -> _. apply H. left. reflexivity.
Qed.
Lemma feeds_in : forall k c, In c (feeds k (s_ "a")) -> c = c_nl \/ In c (s_ "a").
Proof. intros k c H. unfold feeds in H. apply in_app_iff in H. destruct H as [H|H]; [left; exact (repeat_spec _ _ _ H)|right; exact H]. Qed.
Lemma feeds_display : forall k, display_yamd (one_code [] (feeds k (s_ "a"))) = s_ "```" ++ nl ++ feeds k (s_ "a") ++ nl ++ s_ "```".
Proof.
  intros k. change (display_yamd (one_code [] (feeds k (s_ "a")))) with (display_code [] (feeds k (s_ "a"))). unfold display_code, esc_char.
  rewrite (replace_off c_bslash [] [c_bslash; c_bslash] (feeds k (s_ "a"))) by (intros X; apply feeds_in in X; destruct X as [X|[X|[]]]; discriminate X).
  pose proof (replace_off c_backtick (s_ "``") (c_bslash :: s_ "```") (feeds k (s_ "a")) ltac:(intros X; apply feeds_in in X; destruct X as [X|[X|[]]]; discriminate X)) as E.
  change (c_backtick :: s_ "``") with (s_ "```") in E. rewrite E. reflexivity.
Qed.
Theorem raw_rounds : forall n, exists s, Settled.raw s /\ List.length s = n + 9 /\ (forall i j, i < j <= n -> rounds i s <> rounds j s) /\ (forall i, n <= i -> rounds i s = rounds n s).
Proof.
  intros n. assert (T : tame_code [] (s_ "a")) by (split; [intros []|]; split; [intros [X|[]]; discriminate X|]; split; intros (r & E); [discriminate E|destruct r as [|? [|]]; discriminate E]).
  pose proof (code_rounds [] (s_ "a") T ltac:(discriminate) n) as R. exists (display_yamd (one_code [] (feeds n (s_ "a")))). split; [|split; [|split]].
  - rewrite feeds_display. split; rewrite !in_app_iff; intros X; destruct X as [X|[X|[X|[X|X]]]]; try (cbn in X; repeat (destruct X as [X|X]; [discriminate X|]); destruct X); apply feeds_in in X; destruct X as [X|[X|[]]]; discriminate X.
  - rewrite feeds_display. unfold feeds. rewrite !app_length, repeat_length. cbn. lia.
  - intros i j H E. rewrite !R in E. assert (E1 : display_yamd (one_code [] (feeds (n - i) (s_ "a"))) = display_yamd (one_code [] (feeds (n - j) (s_ "a")))) by congruence.
    rewrite !feeds_display in E1. apply (f_equal (@List.length _)) in E1. unfold feeds in E1. rewrite !app_length, !repeat_length in E1. cbn in E1. lia.
  - intros i H. rewrite !R. replace (n - i) with (n - n) by lia. reflexivity.
Qed.
