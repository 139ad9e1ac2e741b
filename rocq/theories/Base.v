(** Strings, slices and the result type of the model.

    Rust [char]s are modelled by their code point ([N]); a Rust [str] by the list of its
    characters. Byte offsets are obtained by adding UTF-8 lengths.  The model does not exclude
    surrogates or code points above 0x10FFFF: every theorem holds for any list of numbers, in
    particular for all Rust strings. *)
From Coq Require Export List NArith Arith Bool Lia.
Export ListNotations.

Definition char := N.
Definition str := list char.

(** Outcome of a computation: normal result, Rust panic, or exhausted fuel (the model of a loop
    that does not end). *)
Inductive outcome (A : Type) : Type :=
| Ok (a : A)
| Panic
| OutOfFuel.
Arguments Ok {A} a.
Arguments Panic {A}.
Arguments OutOfFuel {A}.

Definition bind {A B : Type} (m : outcome A) (f : A -> outcome B) : outcome B :=
  match m with
  | Ok a => f a
  | Panic => Panic
  | OutOfFuel => OutOfFuel
  end.
Notation "'let!' x ':=' m 'in' k" := (bind m (fun x => k))
  (at level 200, x pattern, m at level 100, k at level 200, right associativity).

(** [char::len_utf8] (Rust core): number of bytes of a character. *)
Definition utf8_len (c : char) : nat :=
  if (c <? 128)%N then 1
  else if (c <? 2048)%N then 2
  else if (c <? 65536)%N then 3
  else 4.

(** [str::len]: length in bytes. *)
Fixpoint byte_len (s : str) : nat :=
  match s with
  | [] => 0
  | c :: s' => utf8_len c + byte_len s'
  end.

(** Split a string after [n] bytes; [None] if that is not a character boundary or beyond the end. *)
Fixpoint split_bytes (s : str) (n : nat) : option (str * str) :=
  match n with
  | 0 => Some ([], s)
  | _ =>
      match s with
      | [] => None
      | c :: s' =>
          if utf8_len c <=? n then
            match split_bytes s' (n - utf8_len c) with
            | Some (a, b) => Some (c :: a, b)
            | None => None
            end
          else None
      end
  end.

(** [&s[a..b]]: panics if [a > b], if [b] is out of range or if an end is not on a character
    boundary. *)
Definition slice (s : str) (a b : nat) : outcome str :=
  if a <=? b then
    match split_bytes s a with
    | None => Panic
    | Some (_, rest) =>
        match split_bytes rest (b - a) with
        | None => Panic
        | Some (m, _) => Ok m
        end
    end
  else Panic.

Definition char_eqb (a b : char) : bool := N.eqb a b.

Fixpoint str_eqb (a b : str) : bool :=
  match a, b with
  | [], [] => true
  | x :: a', y :: b' => char_eqb x y && str_eqb a' b'
  | _, _ => false
  end.

(** [str::starts_with]. *)
Fixpoint starts_with (p s : str) : bool :=
  match p with
  | [] => true
  | c :: p' =>
      match s with
      | [] => false
      | d :: s' => char_eqb c d && starts_with p' s'
      end
  end.

(** [str::replace(pat, rep)] for a non-empty pattern: leftmost, non-overlapping matches.
    [skip] counts characters of the current match still to be dropped. *)
Fixpoint replace_go (pat rep : str) (skip : nat) (s : str) : str :=
  match s with
  | [] => []
  | c :: s' =>
      match skip with
      | S k => replace_go pat rep k s'
      | 0 =>
          if starts_with pat s
          then rep ++ replace_go pat rep (length pat - 1) s'
          else c :: replace_go pat rep 0 s'
      end
  end.
Definition replace (pat rep : str) (s : str) : str := replace_go pat rep 0 s.

(** [str::trim_start_matches(c)] / [trim_end_matches(c)] / [trim_matches(c)]. *)
Fixpoint trim_start (c : char) (s : str) : str :=
  match s with
  | [] => []
  | d :: s' => if char_eqb c d then trim_start c s' else s
  end.
Definition trim_end (c : char) (s : str) : str := rev (trim_start c (rev s)).
Definition trim_both (c : char) (s : str) : str := trim_end c (trim_start c s).

(** [str::ends_with(c)] for one character. *)
Definition ends_with_char (c : char) (s : str) : bool :=
  match rev s with
  | [] => false
  | d :: _ => char_eqb c d
  end.

(** [slice::join(sep)] on strings. *)
Fixpoint join (sep : str) (l : list str) : str :=
  match l with
  | [] => []
  | [x] => x
  | x :: l' => x ++ sep ++ join sep l'
  end.

(** The characters the code tests for. *)
Definition c_nl : char := 10%N.        (* \n *)
Definition c_cr : char := 13%N.        (* \r *)
Definition c_space : char := 32%N.
Definition c_bang : char := 33%N.      (* ! *)
Definition c_hash : char := 35%N.      (* # *)
Definition c_percent : char := 37%N.   (* % *)
Definition c_lparen : char := 40%N.
Definition c_rparen : char := 41%N.
Definition c_star : char := 42%N.
Definition c_plus : char := 43%N.
Definition c_minus : char := 45%N.
Definition c_gt : char := 62%N.
Definition c_lsquare : char := 91%N.
Definition c_bslash : char := 92%N.
Definition c_rsquare : char := 93%N.
Definition c_underscore : char := 95%N.
Definition c_backtick : char := 96%N.
Definition c_lcurly : char := 123%N.
Definition c_pipe : char := 124%N.
Definition c_rcurly : char := 125%N.
Definition c_tilde : char := 126%N.

(** ASCII literals of Coq as model strings (used by examples and by Display). *)
From Coq Require Import String Ascii.
Fixpoint s_ (s : string) : str :=
  match s with
  | EmptyString => []
  | String a s' => N_of_ascii a :: s_ s'
  end.
Arguments s_ s%string.

(** [str::repeat]. *)
Definition repeat_char (c : char) (n : nat) : str := repeat c n.
