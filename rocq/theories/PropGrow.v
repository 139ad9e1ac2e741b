(** Theorems about the size of a document that is parsed and written again (property C69). *)
From Coq Require Import String.
From Verif Require Import Base LexFacts Ast ToYamd Api GrowFinal.
Open Scope list_scope.

(** A parsed document is written with at most twice the bytes, and at most twice the characters, of its source. *)
Theorem C69_display_bytes : forall s y, deserialize s = Ok y -> byte_len (display_yamd y) <= 2 * byte_len s.
Proof. intros s y H. exact (proj1 (grow_source s y H)). Qed.
Print Assumptions C69_display_bytes.
Theorem C69_display_chars : forall s y, deserialize s = Ok y -> length (display_yamd y) <= 2 * length s.
Proof. intros s y H. exact (proj2 (grow_source s y H)). Qed.
Print Assumptions C69_display_chars.

(** The backslashes that escape a character in the source count for nothing. *)
Theorem C69_display_unescaped : forall s y, deserialize s = Ok y ->
  byte_len (display_yamd y) <= 2 * byte_len (unescape s) /\ length (display_yamd y) <= 2 * length (unescape s).
Proof. exact grow_unescaped. Qed.
Print Assumptions C69_display_unescaped.

(** Two is the best factor: from length 3 on, at every length some source is doubled. *)
Theorem C69_doubled : forall n, 3 <= n -> exists s y, length s = n /\ byte_len s = n /\ deserialize s = Ok y
  /\ length (display_yamd y) = 2 * n /\ byte_len (display_yamd y) = 2 * n.
Proof. exact tildes_double. Qed.
Print Assumptions C69_doubled.

(** ** Concrete cases *)

Definition sizes (s : str) : option (nat * nat * nat * nat) :=
  match deserialize s with
  | Ok y => Some (length s, byte_len s, length (display_yamd y), byte_len (display_yamd y))
  | _ => None
  end.

Example doubled_cases : map sizes [s_ "["; s_ "~~~"; s_ "\~\~"] = [Some (1, 1, 2, 2); Some (3, 3, 6, 6); Some (4, 4, 4, 4)].
Proof. vm_compute. reflexivity. Qed.

(** Blocks after blocks, a highlight in a collapsible, a failed opening, an escape, a character of three bytes. *)
Example mixed_case : (sizes (s_ "# T
{% C
!! H
! I
p **b** [x
!!
%}
- a
 - b
![a](b)
---
end `" ++ [8364%N])) = Some (62, 64, 63, 65).
Proof. vm_compute. reflexivity. Qed.
