(** Model of src/lexer/mod.rs and src/lexer/token.rs. *)
From Verif Require Import Base.

(** src/lexer/token.rs 8-53: [TokenKind]. *)
Inductive token_kind :=
| Terminator | Eol | LeftCurlyBrace | RightCurlyBrace | CollapsibleStart | CollapsibleEnd
| Tilde | Star | Space | Minus | Hash | GreaterThan | Bang | Backtick | Plus
| LeftSquareBracket | RightSquareBracket | LeftParenthesis | RightParenthesis
| Underscore | Pipe | Literal.

(** src/lexer/token.rs 7: derived [PartialEq] of [TokenKind]. *)
Definition kind_eq_dec (a b : token_kind) : {a = b} + {a <> b}.
Proof. decide equality. Defined.
Definition kind_eqb (a b : token_kind) : bool := if kind_eq_dec a b then true else false.

(** src/lexer/token.rs 86-93: [Position]; [usize] fields are unbounded naturals. *)
Record position := mk_pos { byte_index : nat; column : nat; row : nat }.

(** src/lexer/token.rs 97-106: [Token]; [range] is the pair [t_start], [t_end]. *)
Record token := mk_token {
  kind : token_kind; t_start : nat; t_end : nat; t_pos : position; escaped : bool }.

(** [token.range.len()] *)
Definition tlen (t : token) : nat := t_end t - t_start t.

(** src/lexer/token.rs 110-117: [Token::new]. *)
Definition token_new (k : token_kind) (a b : nat) (p : position) : token := mk_token k a b p false.

(** src/lexer/mod.rs 23-31: [Lexer]. [iter] is the list of the (byte offset, char) pairs that the
    [Peekable<CharIndices>] will still deliver, [queue] the [VecDeque] from front to back. *)
Record lexer := mk_lexer {
  literal_start : option position;
  len : nat;
  l_escaped : bool;
  l_position : position;
  iter : list (nat * char);
  queue : list token;
  l_token : option token }.

(** [str::char_indices] (Rust core), starting at byte offset [o]. *)
Fixpoint char_indices_from (o : nat) (s : str) : list (nat * char) :=
  match s with
  | [] => []
  | c :: s' => (o, c) :: char_indices_from (o + utf8_len c) s'
  end.

(** src/lexer/mod.rs 35-45: [Lexer::new]. *)
Definition lexer_new (input : str) : lexer :=
  {| literal_start := None; len := byte_len input; l_escaped := false;
     l_position := mk_pos 0 0 0; iter := char_indices_from 0 input; queue := []; l_token := None |}.

(** [self.token.replace(t)] followed by [queue.push_back] of the old token, the idiom of
    src/lexer/mod.rs 49-56 and 84-86. *)
Definition replace_token (t : token) (lx : lexer) : lexer :=
  {| literal_start := literal_start lx; len := len lx; l_escaped := l_escaped lx;
     l_position := l_position lx; iter := iter lx;
     queue := match l_token lx with Some o => queue lx ++ [o] | None => queue lx end;
     l_token := Some t |}.

(** src/lexer/mod.rs 47-59: [emit_literal_if_started]. *)
Definition emit_literal_if_started (end_byte_index : nat) (lx : lexer) : lexer :=
  match literal_start lx with
  | None => lx
  | Some sp =>
      let lx1 := replace_token
                   (mk_token Literal (byte_index sp) end_byte_index sp (l_escaped lx)) lx in
      {| literal_start := None; len := len lx1; l_escaped := false; l_position := l_position lx1;
         iter := iter lx1; queue := queue lx1; l_token := l_token lx1 |}
  end.

(** src/lexer/mod.rs 112-118: [to_token]. *)
Definition to_token (k : token_kind) (p : position) (len_in_bytes : nat) : token :=
  token_new k (byte_index p) (byte_index p + len_in_bytes) p.

(** src/lexer/mod.rs 61-80: [eol]. *)
Definition eol (p : position) (len_in_bytes : nat) (lx0 : lexer) : lexer :=
  let lx := emit_literal_if_started (byte_index p) lx0 in
  let pos' := mk_pos (byte_index (l_position lx)) 0 (row (l_position lx) + 1) in
  let with_token (q : list token) (t : token) :=
    {| literal_start := literal_start lx; len := len lx; l_escaped := l_escaped lx;
       l_position := pos'; iter := iter lx; queue := q; l_token := Some t |} in
  match l_token lx with
  | None => with_token (queue lx) (to_token Eol p len_in_bytes)
  | Some t =>
      if kind_eqb (kind t) Eol
      then with_token (queue lx) (to_token Terminator (t_pos t) (tlen t + len_in_bytes))
      else with_token (queue lx ++ [t]) (to_token Eol p len_in_bytes)
  end.

(** src/lexer/mod.rs 82-87: [emit]. *)
Definition emit (t : token) (lx : lexer) : lexer :=
  replace_token t (emit_literal_if_started (byte_index (t_pos t)) lx).

(** src/lexer/mod.rs 102-106: the effect of taking the character [c] at byte offset [o] on
    [self.position]. *)
Definition bump (esc : bool) (o : nat) (c : char) (p : position) : position :=
  if negb (char_eqb c c_bslash) || esc
  then mk_pos o (column p + 1) (row p)
  else mk_pos o (column p) (row p).

Definition set_iter (it : list (nat * char)) (p : position) (lx : lexer) : lexer :=
  {| literal_start := literal_start lx; len := len lx; l_escaped := l_escaped lx;
     l_position := p; iter := it; queue := queue lx; l_token := l_token lx |}.

(** src/lexer/mod.rs 100-110: [next_char]; the returned position is the one before the column is
    incremented. *)
Definition next_char (esc : bool) (lx : lexer) : option (position * char) * lexer :=
  match iter lx with
  | [] => (None, lx)
  | (o, c) :: it =>
      (Some (mk_pos o (column (l_position lx)) (row (l_position lx)), c),
       set_iter it (bump esc o c (l_position lx)) lx)
  end.

(** src/lexer/mod.rs 89-98: [next_is]. *)
Definition next_is (c : char) (lx : lexer) : bool * lexer :=
  match iter lx with
  | [] => (false, lx)
  | (_, d) :: _ => if char_eqb d c then (true, snd (next_char false lx)) else (false, lx)
  end.

(** src/lexer/mod.rs 121: [while self.next_is(c) {}], by recursion on the remaining characters. *)
Fixpoint take_loop (c : char) (it : list (nat * char)) (p : position)
  : list (nat * char) * position :=
  match it with
  | [] => ([], p)
  | (o, d) :: it' => if char_eqb d c then take_loop c it' (bump false o d p) else (it, p)
  end.

(** src/lexer/mod.rs 120-127: [take_while]. *)
Definition take_while (c : char) (k : token_kind) (start : position) (lx : lexer) : lexer :=
  let '(it, p) := take_loop c (iter lx) (l_position lx) in
  emit (token_new k (byte_index start) (byte_index p + 1) start) (set_iter it p lx).

(** [self.literal_start.get_or_insert(p)] *)
Definition get_or_insert_literal (p : position) (lx : lexer) : lexer :=
  {| literal_start := match literal_start lx with Some q => Some q | None => Some p end;
     len := len lx; l_escaped := l_escaped lx; l_position := l_position lx; iter := iter lx;
     queue := queue lx; l_token := l_token lx |}.

Definition set_escaped (lx : lexer) : lexer :=
  {| literal_start := literal_start lx; len := len lx; l_escaped := true;
     l_position := l_position lx; iter := iter lx; queue := queue lx; l_token := l_token lx |}.

(** src/lexer/mod.rs 139-145: the arm for the backslash. *)
Definition parse_escape (p : position) (lx : lexer) : lexer :=
  let lx1 := emit_literal_if_started (byte_index p) lx in
  match next_char true lx1 with
  | (Some (q, _), lx2) => get_or_insert_literal q (set_escaped lx2)
  | (None, lx2) => lx2
  end.

(** src/lexer/mod.rs 146-165: the arms after the guarded ones, in order. *)
Definition parse_rest (p : position) (c : char) (lx : lexer) : lexer :=
  if char_eqb c c_bslash then parse_escape p lx
  else if char_eqb c c_tilde then take_while c_tilde Tilde p lx
  else if char_eqb c c_star then take_while c_star Star p lx
  else if char_eqb c c_rcurly then take_while c_rcurly RightCurlyBrace p lx
  else if char_eqb c c_lcurly then take_while c_lcurly LeftCurlyBrace p lx
  else if char_eqb c c_space && match literal_start lx with None => true | Some _ => false end
       then take_while c_space Space p lx
  else if char_eqb c c_minus then take_while c_minus Minus p lx
  else if char_eqb c c_hash then take_while c_hash Hash p lx
  else if char_eqb c c_gt then take_while c_gt GreaterThan p lx
  else if char_eqb c c_bang then take_while c_bang Bang p lx
  else if char_eqb c c_backtick then take_while c_backtick Backtick p lx
  else if char_eqb c c_plus then take_while c_plus Plus p lx
  else if char_eqb c c_lsquare then emit (to_token LeftSquareBracket p 1) lx
  else if char_eqb c c_rsquare then emit (to_token RightSquareBracket p 1) lx
  else if char_eqb c c_lparen then emit (to_token LeftParenthesis p 1) lx
  else if char_eqb c c_rparen then emit (to_token RightParenthesis p 1) lx
  else if char_eqb c c_underscore then emit (to_token Underscore p 1) lx
  else if char_eqb c c_pipe then emit (to_token Pipe p 1) lx
  else get_or_insert_literal p lx.

(** src/lexer/mod.rs 129-167: [parse]. The guards [self.next_is(..)] are evaluated only when
    the character pattern matches and consume only on success, as in the Rust match. *)
Definition parse_char (p : position) (c : char) (lx : lexer) : lexer :=
  if char_eqb c c_nl then eol p 1 lx
  else if char_eqb c c_cr then
    match next_is c_nl lx with
    | (true, lx1) => eol p 2 lx1
    | (false, lx1) => parse_rest p c lx1
    end
  else if char_eqb c c_lcurly then
    match next_is c_percent lx with
    | (true, lx1) => emit (to_token CollapsibleStart p 2) lx1
    | (false, lx1) => parse_rest p c lx1
    end
  else if char_eqb c c_percent then
    match next_is c_rcurly lx with
    | (true, lx1) => emit (to_token CollapsibleEnd p 2) lx1
    | (false, lx1) => parse_rest p c lx1
    end
  else parse_rest p c lx.

(** src/lexer/mod.rs 174-179: the end-of-input branch of [advance]. *)
Definition finish (lx0 : lexer) : lexer :=
  let lx1 := set_iter (iter lx0)
               (mk_pos (len lx0) (column (l_position lx0)) (row (l_position lx0))) lx0 in
  let lx := emit_literal_if_started (byte_index (l_position lx1)) lx1 in
  match l_token lx with
  | None => lx
  | Some t =>
      {| literal_start := literal_start lx; len := len lx; l_escaped := l_escaped lx;
         l_position := l_position lx; iter := iter lx; queue := queue lx ++ [t];
         l_token := None |}
  end.

(** src/lexer/mod.rs 169-182: [advance]; every turn of the loop takes one character at least, so
    the fuel [S (length iter)] never runs out (theorem in LexProofs.v). *)
Fixpoint advance_loop (fuel : nat) (lx : lexer) : outcome lexer :=
  match fuel with
  | 0 => OutOfFuel
  | S f =>
      match queue lx with
      | _ :: _ => Ok lx
      | [] =>
          match next_char false lx with
          | (Some (p, c), lx1) => advance_loop f (parse_char p c lx1)
          | (None, lx1) => Ok (finish lx1)
          end
      end
  end.
Definition advance (lx : lexer) : outcome lexer := advance_loop (S (length (iter lx))) lx.

(** src/lexer/mod.rs 188-191: [Iterator::next]. *)
Definition lexer_next (lx : lexer) : outcome (option token * lexer) :=
  let! lx1 := advance lx in
  match queue lx1 with
  | [] => Ok (None, lx1)
  | t :: q =>
      Ok (Some t,
          {| literal_start := literal_start lx1; len := len lx1; l_escaped := l_escaped lx1;
             l_position := l_position lx1; iter := iter lx1; queue := q;
             l_token := l_token lx1 |})
  end.

(** [Iterator::collect]: call [next] until it returns [None]. *)
Fixpoint collect_loop (fuel : nat) (lx : lexer) : outcome (list token) :=
  match fuel with
  | 0 => OutOfFuel
  | S f =>
      let! (o, lx1) := lexer_next lx in
      match o with
      | None => Ok []
      | Some t => let! ts := collect_loop f lx1 in Ok (t :: ts)
      end
  end.

(** src/op/parser.rs 144: [Lexer::new(input).collect()]. *)
Definition lex (input : str) : outcome (list token) :=
  collect_loop (S (length input)) (lexer_new input).
