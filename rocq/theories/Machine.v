(** The arithmetic of the lexer and of link destinations with machine integers: an addition or
    subtraction that leaves the range of its type panics, as in a build with overflow checks. *)
From Coq Require Import ZArith.
From Verif Require Import Base Lexer Ops Parser.

(** [a + b] for [usize] with the greatest value [m]. *)
Definition uadd (m a b : nat) : outcome nat := if a + b <=? m then Ok (a + b) else Panic.
(** A result of type [i32], given the least and the greatest value. *)
Definition within (lo hi z : Z) : outcome Z := if ((lo <=? z) && (z <=? hi))%Z then Ok z else Panic.
Definition i32_min : Z := (- 2 ^ 31)%Z.
Definition i32_max : Z := (2 ^ 31 - 1)%Z.

(** ** src/lexer/mod.rs *)

Section Lexer.
  Variable m : nat.

  (** 112-118: [to_token]. *)
  Definition to_token_m (k : token_kind) (p : position) (len_in_bytes : nat) : outcome token :=
    let! e := uadd m (byte_index p) len_in_bytes in Ok (token_new k (byte_index p) e p).
  (** 61-80: [eol]. *)
  Definition eol_m (p : position) (len_in_bytes : nat) (lx0 : lexer) : outcome lexer :=
    let lx := emit_literal_if_started (byte_index p) lx0 in
    let! r := uadd m (row (l_position lx)) 1 in
    let pos' := mk_pos (byte_index (l_position lx)) 0 r in
    let with_token (q : list token) (t : token) :=
      {| literal_start := literal_start lx; len := len lx; l_escaped := l_escaped lx;
         l_position := pos'; iter := iter lx; queue := q; l_token := Some t |} in
    let! e := to_token_m Eol p len_in_bytes in
    match l_token lx with
    | None => Ok (with_token (queue lx) e)
    | Some t =>
        if kind_eqb (kind t) Eol
        then let! n := uadd m (tlen t) len_in_bytes in
             let! u := to_token_m Terminator (t_pos t) n in
             Ok (with_token (queue lx) u)
        else Ok (with_token (queue lx ++ [t]) e)
    end.
  (** 102-106. *)
  Definition bump_m (esc : bool) (o : nat) (c : char) (p : position) : outcome position :=
    if negb (char_eqb c c_bslash) || esc
    then let! n := uadd m (column p) 1 in Ok (mk_pos o n (row p))
    else Ok (mk_pos o (column p) (row p)).
  (** 100-110: [next_char]. *)
  Definition next_char_m (esc : bool) (lx : lexer) : outcome (option (position * char) * lexer) :=
    match iter lx with
    | [] => Ok (None, lx)
    | (o, c) :: it =>
        let! q := bump_m esc o c (l_position lx) in
        Ok (Some (mk_pos o (column (l_position lx)) (row (l_position lx)), c), set_iter it q lx)
    end.
  (** 89-98: [next_is]. *)
  Definition next_is_m (c : char) (lx : lexer) : outcome (bool * lexer) :=
    match iter lx with
    | [] => Ok (false, lx)
    | (_, d) :: _ => if char_eqb d c then let! (_, l) := next_char_m false lx in Ok (true, l) else Ok (false, lx)
    end.
  (** 120-127: [take_while]. *)
  Fixpoint take_loop_m (c : char) (it : list (nat * char)) (p : position) : outcome (list (nat * char) * position) :=
    match it with
    | [] => Ok ([], p)
    | (o, d) :: it' => if char_eqb d c then let! q := bump_m false o d p in take_loop_m c it' q else Ok (it, p)
    end.
  Definition take_while_m (c : char) (k : token_kind) (start : position) (lx : lexer) : outcome lexer :=
    let! (it, p) := take_loop_m c (iter lx) (l_position lx) in
    let! e := uadd m (byte_index p) 1 in
    Ok (emit (token_new k (byte_index start) e start) (set_iter it p lx)).
  Definition emit_m (k : token_kind) (p : position) (n : nat) (lx : lexer) : outcome lexer :=
    let! t := to_token_m k p n in Ok (emit t lx).
  (** 139-145. *)
  Definition parse_escape_m (p : position) (lx : lexer) : outcome lexer :=
    let lx1 := emit_literal_if_started (byte_index p) lx in
    let! (o, lx2) := next_char_m true lx1 in
    match o with
    | Some (q, _) => Ok (get_or_insert_literal q (set_escaped lx2))
    | None => Ok lx2
    end.
  (** 146-165. *)
  Definition parse_rest_m (p : position) (c : char) (lx : lexer) : outcome lexer :=
    if char_eqb c c_bslash then parse_escape_m p lx
    else if char_eqb c c_tilde then take_while_m c_tilde Tilde p lx
    else if char_eqb c c_star then take_while_m c_star Star p lx
    else if char_eqb c c_rcurly then take_while_m c_rcurly RightCurlyBrace p lx
    else if char_eqb c c_lcurly then take_while_m c_lcurly LeftCurlyBrace p lx
    else if char_eqb c c_space && match literal_start lx with None => true | Some _ => false end
         then take_while_m c_space Space p lx
    else if char_eqb c c_minus then take_while_m c_minus Minus p lx
    else if char_eqb c c_hash then take_while_m c_hash Hash p lx
    else if char_eqb c c_gt then take_while_m c_gt GreaterThan p lx
    else if char_eqb c c_bang then take_while_m c_bang Bang p lx
    else if char_eqb c c_backtick then take_while_m c_backtick Backtick p lx
    else if char_eqb c c_plus then take_while_m c_plus Plus p lx
    else if char_eqb c c_lsquare then emit_m LeftSquareBracket p 1 lx
    else if char_eqb c c_rsquare then emit_m RightSquareBracket p 1 lx
    else if char_eqb c c_lparen then emit_m LeftParenthesis p 1 lx
    else if char_eqb c c_rparen then emit_m RightParenthesis p 1 lx
    else if char_eqb c c_underscore then emit_m Underscore p 1 lx
    else if char_eqb c c_pipe then emit_m Pipe p 1 lx
    else Ok (get_or_insert_literal p lx).
  (** 129-167: [parse]. *)
  Definition parse_char_m (p : position) (c : char) (lx : lexer) : outcome lexer :=
    if char_eqb c c_nl then eol_m p 1 lx
    else if char_eqb c c_cr then
      let! (b, lx1) := next_is_m c_nl lx in if b then eol_m p 2 lx1 else parse_rest_m p c lx1
    else if char_eqb c c_lcurly then
      let! (b, lx1) := next_is_m c_percent lx in if b then emit_m CollapsibleStart p 2 lx1 else parse_rest_m p c lx1
    else if char_eqb c c_percent then
      let! (b, lx1) := next_is_m c_rcurly lx in if b then emit_m CollapsibleEnd p 2 lx1 else parse_rest_m p c lx1
    else parse_rest_m p c lx.
  (** 169-191: [advance] and [next]. *)
  Fixpoint advance_loop_m (fuel : nat) (lx : lexer) : outcome lexer :=
    match fuel with
    | 0 => OutOfFuel
    | S f =>
        match queue lx with
        | _ :: _ => Ok lx
        | [] =>
            let! (o, lx1) := next_char_m false lx in
            match o with
            | Some (p, c) => let! lx2 := parse_char_m p c lx1 in advance_loop_m f lx2
            | None => Ok (finish lx1)
            end
        end
    end.
  Definition lexer_next_m (lx : lexer) : outcome (option token * lexer) :=
    let! lx1 := advance_loop_m (S (length (iter lx))) lx in
    match queue lx1 with
    | [] => Ok (None, lx1)
    | t :: q =>
        Ok (Some t,
            {| literal_start := literal_start lx1; len := len lx1; l_escaped := l_escaped lx1;
               l_position := l_position lx1; iter := iter lx1; queue := q; l_token := l_token lx1 |})
    end.
  Fixpoint collect_loop_m (fuel : nat) (lx : lexer) : outcome (list token) :=
    match fuel with
    | 0 => OutOfFuel
    | S f =>
        let! (o, lx1) := lexer_next_m lx in
        match o with
        | None => Ok []
        | Some t => let! ts := collect_loop_m f lx1 in Ok (t :: ts)
        end
    end.
  Definition lex_m (input : str) : outcome (list token) := collect_loop_m (S (length input)) (lexer_new input).
End Lexer.

(** ** src/op/destination.rs *)

(** 16-39: the loop, with [paren_count] an integer between [lo] and [hi] ([i32], the default type
    of an integer literal). *)
Fixpoint destination_loop_m (lo hi : Z) (fuel : nat) (paren_count : Z) (end_pos : nat) (p : parser)
  : outcome (nat * parser) :=
  match fuel with
  | 0 => OutOfFuel
  | S f =>
      match peek p with
      | None => Ok (end_pos, p)
      | Some t =>
          if at_eof p then Ok (end_pos, p)
          else
            let p1 := set_pos (pos p + 1) p in
            match kind t with
            | LeftParenthesis =>
                let! n := within lo hi (paren_count + 1) in destination_loop_m lo hi f n end_pos p1
            | RightParenthesis =>
                let! n := within lo hi (paren_count - 1) in
                if (n =? 0)%Z then Ok (pos p, p1) else destination_loop_m lo hi f n (pos p) p1
            | _ => destination_loop_m lo hi f paren_count end_pos p1
            end
      end
  end.

(** 10-55. *)
Definition destination_m (lo hi : Z) (p : parser) : outcome (bool * parser) :=
  let start := pos p in
  match eat is_left_paren p with
  | (None, p1) => Ok (false, p1)
  | (Some start_range, p1) =>
      let! (end_pos, p2) := destination_loop_m lo hi (loop_fuel p) 1 start p1 in
      if start =? end_pos then Ok (false, set_pos start p2)
      else
        let! cs := span start_range p2 in
        let! cb := span (start + 1, end_pos) p2 in
        let! ce := span (end_pos, end_pos + 1) p2 in
        Ok (true,
            push_op (new_end NDestination ce)
              (push_op (new_value cb)
                 (push_op (new_start NDestination cs) (set_pos (end_pos + 1) p2))))
  end.
