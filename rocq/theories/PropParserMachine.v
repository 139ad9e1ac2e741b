(** Machine integers in the whole parser (C79). *)
From Coq Require Import ZArith String.
From Verif Require Import Base Lexer Ops Parser ToYamd Api StreamProofs3 Machine MachineProofs ParserMachine ParserMachineProofs CounterOverflow.
Open Scope list_scope.

(** With [usize] able to hold the length of the source in bytes and the counter of parentheses able to hold all but two
    of its characters, every addition and subtraction of the lexer and the parser stays in range: with checked arithmetic
    the operations are the same, and nothing panics. *)
Theorem C79_parse : forall umax lo hi s,
  byte_len s <= umax -> (lo <= 0)%Z -> (Z.of_nat (List.length s) <= hi + 2)%Z ->
  parse_u umax lo hi s = parse s /\ exists ops, parse s = Ok ops.
Proof.
  intros umax lo hi s B L H. split; [|apply parse_total].
  apply (parse_u_ok umax (List.length s)); auto. pose proof (length_byte_len s). lia.
Qed.
Print Assumptions C79_parse.
(** With the types of the code: a [usize] of any width and [i32]. *)
Theorem C79_deserialize : forall umax s,
  byte_len s <= umax -> (Z.of_nat (List.length s) <= 2 ^ 31 + 1)%Z ->
  (let! ops := parse_u umax i32_min i32_max s in to_yamd ops s) = deserialize s.
Proof.
  intros umax s B H. destruct (C79_parse umax i32_min i32_max s B) as (-> & _); [discriminate|unfold i32_max; lia|reflexivity].
Qed.
Print Assumptions C79_deserialize.
(** The bounds cannot be lowered: one byte or one character more can overflow. *)
Theorem C79_bytes_refuted : exists umax s, byte_len s = umax + 1 /\ parse_u umax i32_min i32_max s = Panic.
Proof. exists 3, (s_ "abcd"). split; reflexivity. Qed.
Print Assumptions C79_bytes_refuted.
Theorem C79_counter_refuted : forall umax lo h, (lo <= 0)%Z -> 1 <= h -> h + 3 <= umax ->
  exists s, List.length s = h + 3 /\ byte_len s <= umax /\ parse_u umax lo (Z.of_nat h) s = Panic.
Proof.
  intros umax lo h L H F. exists (opened h). rewrite opened_bytes. split; [|split; [exact F|apply counter_overflows; auto]].
  unfold opened. cbn [List.length]. rewrite repeat_length. lia.
Qed.
Print Assumptions C79_counter_refuted.
(** So a text of 2^31 + 2 characters makes the code panic when overflow is checked. *)
Theorem C79_i32_refuted : forall umax, (2 ^ 31 + 2 <= Z.of_nat umax)%Z ->
  exists s, Z.of_nat (List.length s) = (2 ^ 31 + 2)%Z /\ byte_len s <= umax /\ parse_u umax i32_min i32_max s = Panic.
Proof.
  intros umax F. destruct (C79_counter_refuted umax i32_min (Z.to_nat i32_max)) as (s & L & B & P);
    [discriminate|unfold i32_max; lia|unfold i32_max; lia|].
  exists s. rewrite Z2Nat.id in P by discriminate. split; [|auto]. rewrite L, Nat2Z.inj_add, Z2Nat.id by discriminate. reflexivity.
Qed.
Print Assumptions C79_i32_refuted.

(** The overflowing text: [[](((((]. *)
Example C79_opened : opened 4 = s_ "[](((((" /\ parse_u 9 0 4 (opened 4) = Panic /\ exists ops, parse_u 9 0 5 (opened 4) = Ok ops /\ List.length ops = 5.
Proof. split; [reflexivity|]. split; [vm_compute; reflexivity|]. eexists. split; vm_compute; reflexivity. Qed.
Example C79_case :
  let s := s_ "# [a](b(c))

- x
 - y

{% t
!! u
v
!!
%}

```
z
```" in
  let n := byte_len s in
  (exists ops, parse_u n 0 2 s = Ok ops /\ parse s = Ok ops /\ List.length ops = 47)
  /\ parse_u n 0 1 s = Panic
  /\ parse_u (n - 1) 0 2 s = Panic.
Proof.
  cbv zeta. split; [|split; vm_compute; reflexivity].
  eexists. split; [|split]; [vm_compute; reflexivity| |]; vm_compute; reflexivity.
Qed.
(** Checked steps panic where plain ones go on. *)
Example C79_steps :
  let p := mk_parser (s_ "ab") [mk_token Space 0 1 (mk_pos 0 0 0) false] 0 [StopListBoundary 3 Unordered] [] in
  at_eof_u 3 p = Panic /\ at_eof_u 4 p = Ok false /\ at_eof p = false
  /\ eat_u 0 is_space_1 p = Panic /\ next_u 0 p = Panic /\ usub 0 1 = Panic.
Proof. repeat split; vm_compute; reflexivity. Qed.
