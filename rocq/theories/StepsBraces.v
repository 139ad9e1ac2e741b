(** The bound on the number of token reads, by the number of braces: only openings of collapsibles are read again. *)
From Verif Require Import Base Lexer LexSpec LexProofs LexFacts Ops Parser Steps StepsProofs StepsBound StreamProofs3 StepsFinal.

Definition braces (s : str) : nat := count_occ N.eq_dec s c_lcurly.
Lemma braces_app a b : braces (a ++ b) = braces a + braces b.
Proof. apply count_occ_app. Qed.
Lemma starts_annotate ps o c r : Forall piece_ok ps ->
  length (filter is_collapsible_start (annotate o c r ps)) <= braces (flat_map p_src ps).
Proof.
  intros F. revert o c r. induction F as [|p ps P F IH]; intros o c r; cbn [annotate flat_map filter]; [cbn; lia|].
  rewrite braces_app.
  match goal with |- context [if is_collapsible_start ?t then _ else _] => destruct (is_collapsible_start t) eqn:E end.
  - cbn [length]. match goal with |- context [annotate ?x ?y ?z ps] => specialize (IH x y z) end.
    enough (1 <= braces (p_src p)) by lia.
    unfold is_collapsible_start in E. apply andb_prop in E as [E _]. apply kind_eqb_eq in E. cbn [kind] in E.
    destruct P as [P _]. rewrite E in P. cbn [kind_text] in P. unfold p_src.
    rewrite P. destruct (p_esc p); cbn; lia.
  - match goal with |- context [annotate ?x ?y ?z ps] => specialize (IH x y z) end. lia.
Qed.
Lemma starts_braces s ts : lex s = Ok ts -> length (filter is_collapsible_start ts) <= braces s.
Proof.
  rewrite lex_correct. intros [= <-]. destruct (pieces_src s) as (tl & E & _). unfold spec_tokens.
  eapply Nat.le_trans; [apply starts_annotate, pieces_ok|]. rewrite E at 2. rewrite braces_app. lia.
Qed.
Lemma parse_k_braces s :
  within (parse_k s) (fun _ k => k <= 400 * 15 * (length s + 1) ^ 5 * (1 + braces s)).
Proof.
  unfold parse_k. destruct (iterator_protocol s) as (ts & L & LL & _). unfold parser_from. rewrite L. cbn [bind].
  set (n := length ts) in *. set (e := 6 * n + 14).
  set (p0 := mk_parser s ts 0 [] []).
  eapply within_bind with (P := fun p k => p = p0 /\ k = 0); [cbn; auto|]. intros p k0 (-> & ->).
  assert (R0 : ready n e p0) by (unfold ready, p0, e, eof_reads; cbn; lia).
  eapply within_bind; [apply (delimited_attempt n e), R0|]. intros [b p1] k1 (M1 & K1 & _).
  assert (R1 : roomy n e (room n p1) p1).
  { unfold roomy, room, boundary_reads, e, eof_reads, moved in *. destruct M1 as (-> & -> & M1). cbn in *. lia. }
  eapply within_bind; [apply docs_within, R1|]. intros p2 k2 (K2 & C2). apply within_ret.
  assert (S1 : starts p1 <= braces s).
  { unfold starts. destruct M1 as (-> & _). apply (starts_braces s ts L). }
  set (c := braces s) in *.
  assert (HC : cost n e p1 p2 <= turn n e * n + turn n e * (n + 1) * c).
  { unfold cost. destruct K2 as (A1 & A2 & A3 & _). destruct R1 as (Ln & Ps & _).
    apply Nat.add_le_mono; apply Nat.mul_le_mono_l; lia. }
  assert (HU : U n e <= 15 * ((n + 1) * (n + 1))) by (unfold U, e; nia).
  assert (HT : turn n e = 400 * ((n + 1) * (n + 1) * U n e)) by (unfold turn, W, V; ring).
  assert (E3 : e + 1 <= U n e) by (unfold U; nia).
  assert (HA : turn n e * n + turn n e * (n + 1) * c + turn n e = turn n e * (n + 1) * (1 + c)) by ring.
  assert (HB : 5 * U n e + e <= turn n e).
  { rewrite HT. assert (U n e <= (n + 1) * (n + 1) * U n e) by nia. lia. }
  assert (HD : turn n e * (n + 1) * (1 + c) <= 400 * 15 * (length s + 1) ^ 5 * (1 + c)).
  { apply Nat.mul_le_mono_r. apply Nat.le_trans with (400 * 15 * (n + 1) ^ 5); [|apply Nat.mul_le_mono_l, Nat.pow_le_mono_l; lia].
    rewrite HT. generalize (U n e) HU. generalize (n + 1). clear. intros m u H.
    replace (400 * 15 * m ^ 5) with (400 * (m * m * (15 * (m * m))) * m).
    - apply Nat.mul_le_mono_r, Nat.mul_le_mono_l, Nat.mul_le_mono_l, H.
    - cbn [Nat.pow]. ring. }
  change (k1 + (k2 + 0) <= 400 * 15 * (length s + 1) ^ 5 * (1 + c)).
  apply Nat.le_trans with (turn n e * (n + 1) * (1 + c)); [|exact HD]. rewrite <- HA.
  clear HD HA HT HU. lia.
Qed.
Lemma reads_braces s : exists ops k, parse_k s = Ok (ops, k) /\
  k <= 400 * 15 * (length s + 1) ^ 5 * (1 + count_occ N.eq_dec s c_lcurly).
Proof.
  destruct (parse_total s) as [ops P]. destruct (proj1 (parse_k_ok s ops) P) as [k K]. exists ops, k.
  split; [exact K|]. pose proof (parse_k_braces s) as H. rewrite K in H. exact H.
Qed.
