(** Specification: UTF-8 (RFC 3629, section 3) and the slicing rule of Rust's [str]. *)
From Verif Require Import Base.

(** Unicode scalar values, the values of Rust's [char]. *)
Definition scalar (c : char) : Prop := (c < 55296 \/ 57344 <= c < 1114112)%N.
(** A byte of the form 10xxxxxx. *)
Definition tail (n : N) : N := (128 + n mod 64)%N.
Definition bytes_of (c : char) : list N :=
  (if c <? 128 then [c]
   else if c <? 2048 then [192 + c / 64; tail c]
   else if c <? 65536 then [224 + c / 64 / 64; tail (c / 64); tail c]
   else [240 + c / 64 / 64 / 64; tail (c / 64 / 64); tail (c / 64); tail c])%N.
Definition encode (s : str) : list N := flat_map bytes_of s.

(** [str::is_char_boundary]: the end, or a byte that is not of the form 10xxxxxx. *)
Definition char_boundary (bs : list N) (i : nat) : Prop :=
  i = length bs \/ exists b, nth_error bs i = Some b /\ ~ (128 <= b < 192)%N.
(** The bytes from [a] up to [b]. *)
Definition range (bs : list N) (a b : nat) : list N := firstn (b - a) (skipn a bs).
(** When [&s[a..b]] does not panic. *)
Definition sliceable (s : str) (a b : nat) : Prop :=
  a <= b /\ b <= length (encode s) /\ char_boundary (encode s) a /\ char_boundary (encode s) b.
