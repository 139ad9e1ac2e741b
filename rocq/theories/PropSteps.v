(** Theorems about the number of token reads (property C66). *)
From Coq Require Import String.
From Verif Require Import Base Lexer LexSpec StreamSpec Ops Parser Steps StepsProofs StepsFinal StepsLow StepsQuartic StepsBraces.
Open Scope list_scope.

(** The counted parser is the parser. *)
Theorem C66_counted_parser : forall s, drop (parse_k s) = parse s.
Proof. exact parse_drop. Qed.
Print Assumptions C66_counted_parser.

(** Parsing never takes more reads than a fixed polynomial in the length of the input. *)
Theorem C66_reads_polynomial : forall s, exists ops k, parse_k s = Ok (ops, k) /\ k <= 400 * 15 * (length s + 1) ^ 6.
Proof. exact reads_polynomial. Qed.
Print Assumptions C66_reads_polynomial.
(** Only openings of collapsibles are read again: one degree less, times the number of opening braces. *)
Theorem C66_reads_braces : forall s, exists ops k, parse_k s = Ok (ops, k) /\
  k <= 400 * 15 * (length s + 1) ^ 5 * (1 + count_occ N.eq_dec s c_lcurly).
Proof. exact reads_braces. Qed.
Print Assumptions C66_reads_braces.

(** No linear bound holds: [n] opening brackets take at least [n * n / 2] reads. *)
Theorem C66_linear_reads_refuted : forall c, exists s ops k, parse_k s = Ok (ops, k) /\ c * (length s + 1) < k.
Proof. exact reads_not_linear. Qed.
Print Assumptions C66_linear_reads_refuted.
Theorem C66_brackets_quadratic : forall n, exists ops k, parse_k (repeat c_lsquare n) = Ok (ops, k) /\ n * n <= 2 * k.
Proof. exact reads_quadratic. Qed.
Print Assumptions C66_brackets_quadratic.

(** Nor does a cubic one: in [m] unclosed collapsibles before [k] brackets, every bracket is looked for a closing one once
    for each opening, and each step of the search tests one condition for every opening around it. None of the
    conditions ever holds, so no test counted here is one that the code would skip. *)
Theorem C66_unclosed_quartic : forall m k, exists ops n,
  parse_k (List.concat (repeat [c_lcurly; c_percent; c_nl] m) ++ repeat c_lsquare k) = Ok (ops, n)
  /\ k * (k - 1) * (m * (m + 1)) <= 4 * n.
Proof. exact reads_unclosed_concat. Qed.
Print Assumptions C66_unclosed_quartic.
Theorem C66_cubic_reads_refuted : forall c, exists s ops k, parse_k s = Ok (ops, k) /\ c * (length s + 1) ^ 3 < k.
Proof. exact reads_not_cubic. Qed.
Print Assumptions C66_cubic_reads_refuted.

(** ** Concrete cases *)

Definition reads_of (s : str) : option N := match parse_k s with Ok (_, k) => Some (N.of_nat k) | _ => None end.
Definition copies (n : nat) (s : str) : str := List.concat (repeat s n).

(** Unclosed collapsibles, each in the body of the one before: twice as many take about five times the reads. Without
    [flip_to_literal] 9 of them would take 76479 reads and each further one would double the number. *)
Definition opening : string := "{% a

".
Example unclosed : map (fun n => reads_of (copies n (s_ opening))) [9; 10; 20] = [Some 4782%N; Some 6082%N; Some 32667%N].
Proof. vm_compute. reflexivity. Qed.
(** Brackets, and text in which nothing is looked for. *)
Example brackets : map (fun n => reads_of (repeat c_lsquare n)) [10; 20; 40] = [Some 270%N; Some 815%N; Some 2805%N].
Proof. vm_compute. reflexivity. Qed.
Example plain : map (fun n => reads_of (copies n (s_ "a~b "))) [10; 20; 40] = [Some 235%N; Some 435%N; Some 835%N].
Proof. vm_compute. reflexivity. Qed.
(** Collapsibles and brackets, 16, 32 and 64 characters: twice as many take about ten times the reads. *)
Example unclosed_brackets :
  map (fun n => reads_of (copies n [c_lcurly; c_percent; c_nl] ++ repeat c_lsquare n)) [4; 8; 16] = [Some 1003%N; Some 5805%N; Some 53249%N].
Proof. vm_compute. reflexivity. Qed.
