(** The lexer of Lexer.v with a counter of character reads.

    Every function is the one of Lexer.v (same lines of the code) and also returns how often it has called [next] or
    [peek] of the iterator over the characters: [next_char] once, [next_is] once or, when it takes the character, twice. *)
From Verif Require Import Base Lexer.

Definition next_is_k (c : char) (lx : lexer) : bool * lexer * nat :=
  match iter lx with
  | [] => (false, lx, 1)
  | (_, d) :: _ => if char_eqb d c then (true, snd (next_char false lx), 2) else (false, lx, 1)
  end.
Fixpoint take_loop_k (c : char) (it : list (nat * char)) (p : position) : list (nat * char) * position * nat :=
  match it with
  | [] => ([], p, 1)
  | (o, d) :: it' =>
      if char_eqb d c then let '(r, k) := take_loop_k c it' (bump false o d p) in (r, 2 + k) else (it, p, 1)
  end.
Definition take_while_k (c : char) (k : token_kind) (start : position) (lx : lexer) : lexer * nat :=
  let '(it, p, n) := take_loop_k c (iter lx) (l_position lx) in
  (emit (token_new k (byte_index start) (byte_index p + 1) start) (set_iter it p lx), n).
Definition parse_escape_k (p : position) (lx : lexer) : lexer * nat :=
  let lx1 := emit_literal_if_started (byte_index p) lx in
  match next_char true lx1 with
  | (Some (q, _), lx2) => (get_or_insert_literal q (set_escaped lx2), 1)
  | (None, lx2) => (lx2, 1)
  end.
Definition parse_rest_k (p : position) (c : char) (lx : lexer) : lexer * nat :=
  if char_eqb c c_bslash then parse_escape_k p lx
  else if char_eqb c c_tilde then take_while_k c_tilde Tilde p lx
  else if char_eqb c c_star then take_while_k c_star Star p lx
  else if char_eqb c c_rcurly then take_while_k c_rcurly RightCurlyBrace p lx
  else if char_eqb c c_lcurly then take_while_k c_lcurly LeftCurlyBrace p lx
  else if char_eqb c c_space && match literal_start lx with None => true | Some _ => false end
       then take_while_k c_space Space p lx
  else if char_eqb c c_minus then take_while_k c_minus Minus p lx
  else if char_eqb c c_hash then take_while_k c_hash Hash p lx
  else if char_eqb c c_gt then take_while_k c_gt GreaterThan p lx
  else if char_eqb c c_bang then take_while_k c_bang Bang p lx
  else if char_eqb c c_backtick then take_while_k c_backtick Backtick p lx
  else if char_eqb c c_plus then take_while_k c_plus Plus p lx
  else if char_eqb c c_lsquare then (emit (to_token LeftSquareBracket p 1) lx, 0)
  else if char_eqb c c_rsquare then (emit (to_token RightSquareBracket p 1) lx, 0)
  else if char_eqb c c_lparen then (emit (to_token LeftParenthesis p 1) lx, 0)
  else if char_eqb c c_rparen then (emit (to_token RightParenthesis p 1) lx, 0)
  else if char_eqb c c_underscore then (emit (to_token Underscore p 1) lx, 0)
  else if char_eqb c c_pipe then (emit (to_token Pipe p 1) lx, 0)
  else (get_or_insert_literal p lx, 0).
Definition after_k (k : nat) (r : lexer * nat) : lexer * nat := (fst r, k + snd r).
Definition parse_char_k (p : position) (c : char) (lx : lexer) : lexer * nat :=
  if char_eqb c c_nl then (eol p 1 lx, 0)
  else if char_eqb c c_cr then
    match next_is_k c_nl lx with
    | (true, lx1, k) => (eol p 2 lx1, k)
    | (false, lx1, k) => after_k k (parse_rest_k p c lx1)
    end
  else if char_eqb c c_lcurly then
    match next_is_k c_percent lx with
    | (true, lx1, k) => (emit (to_token CollapsibleStart p 2) lx1, k)
    | (false, lx1, k) => after_k k (parse_rest_k p c lx1)
    end
  else if char_eqb c c_percent then
    match next_is_k c_rcurly lx with
    | (true, lx1, k) => (emit (to_token CollapsibleEnd p 2) lx1, k)
    | (false, lx1, k) => after_k k (parse_rest_k p c lx1)
    end
  else parse_rest_k p c lx.
Fixpoint advance_loop_k (fuel : nat) (lx : lexer) : outcome (lexer * nat) :=
  match fuel with
  | 0 => OutOfFuel
  | S f =>
      match queue lx with
      | _ :: _ => Ok (lx, 0)
      | [] =>
          match next_char false lx with
          | (Some (p, c), lx1) =>
              let (lx2, k) := parse_char_k p c lx1 in
              let! (lx3, k3) := advance_loop_k f lx2 in Ok (lx3, 1 + k + k3)
          | (None, lx1) => Ok (finish lx1, 1)
          end
      end
  end.
Definition advance_k (lx : lexer) : outcome (lexer * nat) := advance_loop_k (S (length (iter lx))) lx.
Definition lexer_next_k (lx : lexer) : outcome (option token * lexer * nat) :=
  let! (lx1, k) := advance_k lx in
  match queue lx1 with
  | [] => Ok (None, lx1, k)
  | t :: q =>
      Ok (Some t,
          {| literal_start := literal_start lx1; len := len lx1; l_escaped := l_escaped lx1;
             l_position := l_position lx1; iter := iter lx1; queue := q;
             l_token := l_token lx1 |}, k)
  end.
Fixpoint collect_loop_k (fuel : nat) (lx : lexer) : outcome (list token * nat) :=
  match fuel with
  | 0 => OutOfFuel
  | S f =>
      let! (o, lx1, k) := lexer_next_k lx in
      match o with
      | None => Ok ([], k)
      | Some t => let! (ts, k1) := collect_loop_k f lx1 in Ok (t :: ts, k + k1)
      end
  end.
(** The tokens of the input and the number of reads. *)
Definition lex_k (input : str) : outcome (list token * nat) :=
  collect_loop_k (S (length input)) (lexer_new input).

(** States of the lexer between calls of [next]. *)
Inductive reached (s : str) : lexer -> Prop :=
| reached_new : reached s (lexer_new s)
| reached_next : forall lx o lx', reached s lx -> lexer_next lx = Ok (o, lx') -> reached s lx'.
