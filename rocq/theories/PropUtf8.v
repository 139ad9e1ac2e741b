(** Byte offsets and UTF-8 (property C54).  Specification: Utf8Spec.v. *)
From Verif Require Import Base Lexer LexFacts Ops Parser StreamProofs2 StreamProofs3 Utf8Spec Utf8.

(** The slices of the model are the slices of the encoded text, and panic where those of Rust do. *)
Theorem C54_slice : forall s a b x, slice s a b = Ok x <-> sliceable s a b /\ encode x = range (encode s) a b.
Proof. exact slice_bytes. Qed.
Print Assumptions C54_slice.

Theorem C54_panic : forall s a b, slice s a b = Panic <-> ~ sliceable s a b.
Proof. exact slice_panics. Qed.
Print Assumptions C54_panic.

Theorem C54_encoding : (forall s, length (encode s) = byte_len s) /\ (forall s t, encode s = encode t -> s = t)
  /\ (forall s, Forall scalar s -> Forall (fun b => (b < 256)%N) (encode s)).
Proof.
  split; [exact encode_length|]. split; [exact encode_injective|]. intros s F. unfold encode. apply Forall_flat_map.
  induction F as [|c s S F IH]; constructor; [apply bytes_range; exact S|exact IH].
Qed.
Print Assumptions C54_encoding.

(** Tokens and ops: their offsets can be used to slice the source, in bytes. *)
Theorem C54_tokens : forall s ts t, lex s = Ok ts -> In t ts ->
  sliceable s (t_start t) (t_end t) /\ exists x, token_text s t = Ok x /\ encode x = range (encode s) (t_start t) (t_end t).
Proof.
  intros s ts t L I. destruct (token_kinds s ts t L I) as (x & X & _). pose proof (proj1 (slice_bytes _ _ _ _) X) as [S E]. split; [exact S|]. exists x. split; assumption.
Qed.
Print Assumptions C54_tokens.

Theorem C54_spans : forall s ops k a b, parse s = Ok ops -> In (mk_op k (Span a b)) ops -> a < b ->
  sliceable s a b /\ exists x, as_str s (Span a b) = Ok x /\ encode x = range (encode s) a b.
Proof.
  intros s ops k a b P I L. destruct (parse_spans s ops P) as [Q _]. destruct (Q k a b I L) as (A & B & C).
  assert (S : sliceable s a b).
  { split; [lia|]. split; [rewrite encode_length; exact C|]. split; apply boundary_bytes; assumption. }
  split; [exact S|]. destruct (slice s a b) as [x| |] eqn:E.
  - exists x. split; [unfold as_str; rewrite (proj2 (Nat.ltb_lt a b) L); exact E|]. apply slice_bytes in E. apply E.
  - apply slice_panics in E. contradiction.
  - exfalso. assert (slice s a b = Panic \/ exists x, slice s a b = Ok x) as [H|(x & H)]; [|congruence|congruence].
    unfold slice. destruct (a <=? b); [|auto]. destruct (split_bytes s a) as [[? r]|]; [|auto]. destruct (split_bytes r (b - a)) as [[? ?]|]; eauto.
Qed.
Print Assumptions C54_spans.

(** Two, three and four bytes: e with acute, euro sign, an emoji; the token in the middle starts at byte 3. *)
Definition accents : str := [233%N; c_star; 8364%N; c_star; 128512%N].
Example accents_bytes : Forall scalar accents
  /\ encode accents = [195; 169; 42; 226; 130; 172; 42; 240; 159; 152; 128]%N
  /\ slice accents 3 6 = Ok [8364%N] /\ slice accents 4 6 = Panic
  /\ exists ts t, lex accents = Ok ts /\ nth_error ts 2 = Some t /\ t_start t = 3 /\ t_end t = 6.
Proof.
  split; [repeat constructor; unfold scalar; lia|]. split; [reflexivity|]. split; [reflexivity|]. split; [reflexivity|].
  eexists _, _. split; [vm_compute; reflexivity|]. split; [reflexivity|]. split; reflexivity.
Qed.
