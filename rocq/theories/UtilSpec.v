(** What the commands of the utils crate are to print, for C71 and C72. *)
From Coq Require Import String Sorting.Permutation Sorting.Sorted.
From Verif Require Import Base Lexer.
Open Scope list_scope.

(** The number of tokens of a kind. *)
Definition occurrences (k : token_kind) (ts : list token) : nat := count_occ kind_eq_dec (map kind ts) k.

(** A string of decimal digits and the number it stands for. *)
Definition digit (c : char) : Prop := (48 <= c <= 57)%N.
Definition value (d : str) : nat := fold_left (fun a c => 10 * a + N.to_nat (c - 48)) d 0.
Definition decimal (d : str) (n : nat) : Prop :=
  d <> [] /\ Forall digit d /\ value d = n /\ (forall r, d = 48%N :: r -> r = []).

(** The right part begins in column 22, after a colon and spaces. *)
Definition laid_out (line left right : str) : Prop :=
  exists k, line = left ++ s_ ":" ++ repeat 32%N k ++ right /\ List.length left + 1 + k = 22.

(** The rows of the table: every kind that occurs, once, with its number; larger numbers first. *)
Definition table_of (ts : list token) (rows : list (token_kind * nat)) : Prop :=
  NoDup (map fst rows) /\
  (forall k n, In (k, n) rows <-> n = occurrences k ts /\ 0 < n) /\
  StronglySorted (fun a b => snd b <= snd a) rows.

(** An order in which a map can be iterated. *)
Definition shuffles {A} (f : list A -> list A) : Prop := forall l, Permutation (f l) l.

(** Unicode scalar values: the numbers that are a Rust [char]. *)
Definition scalar (c : N) : Prop := (c < 55296 \/ 57344 <= c < 1114112)%N.
