(** Which pieces can stand next to each other: two neighbours must not read differently together
    than apart.  Uses only the vocabulary of LexSpec.v and [kind_text], [is_run_kind] of LexFacts.v. *)
From Verif Require Import Base Lexer LexSpec LexFacts.

(** The text of [p] ends with [c], and no backslash stands in front of that [c]. *)
Definition loose_end (c : char) (p : piece) : Prop :=
  exists x, p_text p = x ++ [c] /\ (p_esc p = true -> x <> []).
Definition begins (c : char) (q : piece) : Prop := exists x, p_text q = c :: x.

Definition clash (p q : piece) : Prop :=
  p_esc q = false /\
  (   (is_run_kind (p_kind p) = true /\ exists c, begins c p /\ begins c q)
   \/ (p_kind p = Literal /\ (p_kind q = Literal \/ p_kind q = Space))
   \/ (p_kind p = Eol /\ (p_kind q = Eol \/ p_kind q = Terminator))
   \/ (p_kind p = LeftCurlyBrace /\ p_text p = [c_lcurly] /\ begins c_percent q)
   \/ (p_kind p = Literal /\ loose_end c_percent p /\ begins c_rcurly q)
   \/ (p_kind p = Literal /\ loose_end c_cr p /\ begins c_nl q)).

(** Every piece has a text of its kind, only literals are escaped, and no neighbours clash. *)
Definition token_list (ps : list piece) : Prop :=
  (forall p, In p ps -> kind_text (p_kind p) (p_esc p) (p_text p) /\ (p_esc p = true -> p_kind p = Literal))
  /\ forall a p q b, ps = a ++ p :: q :: b -> ~ clash p q.

(** The last piece of [l] and the first of [m] do not clash. *)
Definition meets (l m : list piece) : Prop := forall a p q b, l = a ++ [p] -> m = q :: b -> ~ clash p q.
