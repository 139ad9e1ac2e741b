(** Machine integers (C62). *)
From Coq Require Import ZArith String.
From Verif Require Import Base Lexer Ops Parser Machine MachineProofs.
Open Scope list_scope.

(** With [usize] able to hold the length of the source, no addition of the lexer overflows. *)
Theorem C62_lexer : forall umax s, byte_len s <= umax -> lex_m umax s = lex s.
Proof. exact lex_m_ok. Qed.
Print Assumptions C62_lexer.
(** With at most [i32::MAX] tokens the counter of parentheses does not overflow, from any state of the parser. *)
Theorem C62_destination : forall p, (Z.of_nat (List.length (tokens p)) <= i32_max)%Z ->
  destination_m i32_min i32_max p = destination p.
Proof. intro p. apply destination_m_ok. discriminate. Qed.
Print Assumptions C62_destination.
Theorem C62_destination_any_width : forall lo hi p, (lo <= 0)%Z -> (Z.of_nat (List.length (tokens p)) <= hi)%Z ->
  destination_m lo hi p = destination p.
Proof. exact destination_m_ok. Qed.
Print Assumptions C62_destination_any_width.
(** The bound is exact: one token more can overflow. *)
Theorem C62_destination_longer_refuted : forall lo n, (lo <= 0)%Z -> 1 <= n ->
  exists p, List.length (tokens p) = n + 1 /\ destination_m lo (Z.of_nat n) p = Panic.
Proof. intros lo n L N. exists (parens (n + 1)). split; [apply repeat_length|]. exact (destination_m_overflow lo n L N). Qed.
Print Assumptions C62_destination_longer_refuted.
Theorem C62_lexer_longer_refuted : exists umax s, byte_len s = umax + 1 /\ lex_m umax s = Panic.
Proof. exists 3, (s_ "abcd"). split; reflexivity. Qed.
Print Assumptions C62_lexer_longer_refuted.

Definition lexed (s : string) : parser :=
  mk_parser (s_ s) (match lex (s_ s) with Ok ts => ts | _ => [] end) 0 [] [].
Example C62_case :
  lex_m 9 (s_ "~~

{%*%}") = lex (s_ "~~

{%*%}")
  /\ lex_m 5 (s_ "~~

{%*%}") = Panic
  /\ (exists q, destination_m (-4) 3 (lexed "(a(b)c)") = Ok (true, q) /\ pos q = 7)
  /\ destination_m (-4) 3 (lexed "((((a))))") = Panic
  /\ (exists q, destination_m i32_min i32_max (lexed "((((a))))") = Ok (true, q) /\ pos q = 9).
Proof. split; [vm_compute; reflexivity|]. split; [vm_compute; reflexivity|].
  split; [eexists; split; vm_compute; reflexivity|]. split; [vm_compute; reflexivity|].
  eexists; split; vm_compute; reflexivity. Qed.
