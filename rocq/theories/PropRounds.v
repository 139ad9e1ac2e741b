(** How often a text has to be formatted until it stays as it is (property C75).  [rounds]: RoundsSpec.v. *)
From Coq Require Import String.
From Verif Require Import Base Ops Ast ToYamd Api StreamSpec AstSpec Tame Settled RoundsSpec Rounds.
Open Scope list_scope.

(** Every round gives a text. *)
Theorem C75_rounds_total : forall n s, exists t, rounds n s = Ok t.
Proof. exact rounds_total. Qed.
Print Assumptions C75_rounds_total.

(** No number of rounds is enough for all sources, not even for those without backslashes and carriage
    returns: some source of n + 9 characters takes exactly n rounds. *)
Theorem C75_no_fixed_number : forall n, exists s, raw s /\ List.length s = n + 9
  /\ (forall i j, i < j <= n -> rounds i s <> rounds j s) /\ (forall i, n <= i -> rounds i s = rounds n s).
Proof. exact raw_rounds. Qed.
Print Assumptions C75_no_fixed_number.

(** Code loses the line feeds it starts with one in each round, and then stays. *)
Theorem C75_code : forall lang code, tame_code lang code -> code <> [] -> forall k i,
  rounds i (display_yamd (mk_yamd None [YCode lang (repeat c_nl k ++ code)])) = Ok (display_yamd (mk_yamd None [YCode lang (repeat c_nl (k - i) ++ code)])).
Proof. exact code_rounds. Qed.
Print Assumptions C75_code.

(** Metadata loses half of its backslashes in each round. *)
Theorem C75_metadata : forall n k,
  rounds n (s_ "---" ++ nl ++ repeat c_bslash (2 ^ n * k) ++ nl ++ s_ "---" ++ nlnl) = Ok (s_ "---" ++ nl ++ repeat c_bslash k ++ nl ++ s_ "---" ++ nlnl).
Proof. exact slash_rounds. Qed.
Print Assumptions C75_metadata.

(** Three rounds for three line feeds; the fourth changes nothing. *)
Definition fenced (n : nat) : str := s_ "```x" ++ nl ++ repeat c_nl n ++ s_ "y" ++ nl ++ s_ "```".
Example C75_case : map (fun i => rounds i (fenced 3)) [0; 1; 2; 3; 4] = map (fun n => Ok (fenced n)) [3; 2; 1; 0; 0].
Proof. vm_compute. reflexivity. Qed.
(** Four backslashes, two, and then one. *)
Example slash_case : map (fun i => rounds i (s_ "---" ++ nl ++ s_ "\\\\" ++ nl ++ s_ "---")) [1; 2] =
  [Ok (s_ "---" ++ nl ++ s_ "\\" ++ nl ++ s_ "---" ++ nlnl); Ok (s_ "---" ++ nl ++ s_ "\" ++ nl ++ s_ "---" ++ nlnl)].
Proof. vm_compute. reflexivity. Qed.
