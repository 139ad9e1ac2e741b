(** The work of the lexer (property C76).  The lexer with a counter of reads, and the states between calls of [next]: LexCount.v. *)
From Coq Require Import String.
From Verif Require Import Base Lexer LexCount LexCountProofs.

(** The lexer with the counter is the lexer. *)
Theorem C76_same_lexer : forall s, (let! (ts, _) := lex_k s in Ok ts) = lex s.
Proof. exact lex_drop. Qed.
Print Assumptions C76_same_lexer.

(** It always gives its tokens, after at most three reads for each character and two more. *)
Theorem C76_reads_linear : forall s, exists ts k, lex_k s = Ok (ts, k) /\ lex s = Ok ts /\ k <= 3 * length s + 2.
Proof. exact lex_reads. Qed.
Print Assumptions C76_reads_linear.

(** It does not do with less than one read for each character and one for the end. *)
Theorem C76_reads_all : forall s ts k, lex_k s = Ok (ts, k) -> length s < k <= 3 * length s + 2.
Proof. exact lex_reads_all. Qed.
Print Assumptions C76_reads_all.

(** The queue never holds more than the two tokens it is created for. *)
Theorem C76_queue : forall s lx, reached s lx -> length (queue lx) <= 1 /\ forall lx1, advance lx = Ok lx1 -> length (queue lx1) <= 2.
Proof. exact queue_small. Qed.
Print Assumptions C76_queue.

Definition reads (s : str) : nat := match lex_k s with Ok (_, k) => k | _ => 0 end.
(** A brace is read, the next character is looked at twice. *)
Example reads_case : map reads [[]; s_ "a"; s_ "abc"; s_ "{"; s_ "{*{*{*{*"; s_ "----"; s_ "\a"] = [1; 3; 5; 5; 22; 10; 4].
Proof. vm_compute. reflexivity. Qed.
(** Two tokens at once: the bracket and the text before the next bracket. *)
Definition second (s : str) : option (nat * nat) :=
  match advance (lexer_new s) with Ok lx => Some (length (queue lx), length (iter lx)) | _ => None end.
Example queue_case : second (s_ "[a[b") = Some (2, 1).
Proof. vm_compute. reflexivity. Qed.
