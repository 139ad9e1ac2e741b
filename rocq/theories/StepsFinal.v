(** Upper bound for a whole run of the counted parser, and a family of inputs with quadratically many reads. *)
From Verif Require Import Base Lexer LexSpec LexProofs LexFacts Ops Parser Steps StepsProofs StepsBound StreamProofs3.

Lemma parse_k_ok s ops : parse s = Ok ops <-> exists k, parse_k s = Ok (ops, k).
Proof.
  rewrite <- parse_drop. unfold drop. destruct (parse_k s) as [[o k]| |]; cbn; split; try discriminate; eauto.
  - intros [= <-]. eauto.
  - intros (j & [= -> ->]). reflexivity.
  - intros (j & H). discriminate.
  - intros (j & H). discriminate.
Qed.

Lemma filter_le {A} (f : A -> bool) l : length (filter f l) <= length l.
Proof. induction l as [|x l IH]; cbn; [lia|]. destruct (f x); cbn; lia. Qed.
Lemma parse_k_within s :
  within (parse_k s) (fun _ k => k <= 400 * 15 * (length s + 1) ^ 6).
Proof.
  unfold parse_k. destruct (iterator_protocol s) as (ts & L & LL & _). unfold parser_from. rewrite L. cbn [bind].
  set (n := length ts) in *. set (e := 6 * n + 14).
  set (p0 := mk_parser s ts 0 [] []).
  eapply within_bind with (P := fun p k => p = p0 /\ k = 0); [cbn; auto|]. intros p k0 (-> & ->).
  assert (R0 : ready n e p0) by (unfold ready, p0, e, eof_reads; cbn; lia).
  eapply within_bind; [apply (delimited_attempt n e), R0|]. intros [b p1] k1 (M1 & K1 & _).
  assert (R1 : roomy n e (room n p1) p1).
  { unfold roomy, room, boundary_reads, e, eof_reads, moved in *. destruct M1 as (-> & -> & M1). cbn in *. lia. }
  eapply within_bind; [apply docs_within, R1|]. intros p2 k2 (K2 & C2). apply within_ret.
  assert (S1 : starts p1 <= n).
  { unfold starts. destruct M1 as (-> & _). apply filter_le. }
  assert (HC : cost n e p1 p2 <= turn n e * n + turn n e * (n + 1) * n).
  { unfold cost. destruct K2 as (A1 & A2 & A3 & _). destruct R1 as (Ln & Ps & _).
    apply Nat.add_le_mono; apply Nat.mul_le_mono_l; lia. }
  assert (HU : U n e <= 15 * ((n + 1) * (n + 1))) by (unfold U, e; nia).
  assert (HT : turn n e = 400 * ((n + 1) * (n + 1) * U n e)) by (unfold turn, W, V; ring).
  assert (E3 : e + 1 <= U n e) by (unfold U; nia).
  assert (HA : turn n e * n + turn n e * (n + 1) * n + turn n e = turn n e * ((n + 1) * (n + 1))) by ring.
  assert (HB : 5 * U n e + e <= turn n e).
  { rewrite HT. assert (U n e <= (n + 1) * (n + 1) * U n e) by nia. lia. }
  assert (HD : turn n e * ((n + 1) * (n + 1)) <= 400 * 15 * (length s + 1) ^ 6).
  { apply Nat.le_trans with (400 * 15 * (n + 1) ^ 6); [|apply Nat.mul_le_mono_l, Nat.pow_le_mono_l; lia].
    rewrite HT. generalize (U n e) HU. generalize (n + 1). clear. intros m u H.
    replace (400 * 15 * m ^ 6) with (400 * (m * m * (15 * (m * m))) * (m * m)).
    - apply Nat.mul_le_mono_r, Nat.mul_le_mono_l, Nat.mul_le_mono_l, H.
    - cbn [Nat.pow]. ring. }
  change (k1 + (k2 + 0) <= 400 * 15 * (length s + 1) ^ 6).
  apply Nat.le_trans with (turn n e * ((n + 1) * (n + 1))); [|exact HD]. rewrite <- HA.
  clear HD HA HT HU. lia.
Qed.
Lemma reads_polynomial s : exists ops k, parse_k s = Ok (ops, k) /\ k <= 400 * 15 * (length s + 1) ^ 6.
Proof.
  destruct (parse_total s) as [ops P]. destruct (proj1 (parse_k_ok s ops) P) as [k K]. exists ops, k.
  split; [exact K|]. pose proof (parse_k_within s) as H. rewrite K in H. exact H.
Qed.
