(** Specification for C73: values that differ only in the order of map entries. *)
From Coq Require Import Sorting.Permutation.
From Verif Require Import Base Serde.

(** The same value, up to the order of the entries of maps. *)
Inductive alike : value -> value -> Prop :=
| alike_null : alike VNull VNull
| alike_str s : alike (VStr s) (VStr s)
| alike_num n : alike (VNum n) (VNum n)
| alike_list l l' : Forall2 alike l l' -> alike (VList l) (VList l')
| alike_map es es1 es' : Permutation es es1
    -> Forall2 (fun e e' => fst e = fst e' /\ alike (snd e) (snd e')) es1 es' -> alike (VMap es) (VMap es').
