(** A small lexical grammar, written without the state machine of src/lexer/mod.rs: the input is
    cut into pieces from left to right, each piece being found by looking at the remaining text
    only.  [LexProofs.v] proves that the lexer produces exactly these pieces. *)
From Verif Require Import Base Lexer.

(** A piece of the input: kind, text and whether an escaping backslash stands in front of it. *)
Record piece := mk_piece { p_kind : token_kind; p_text : str; p_esc : bool }.

(** The part of the input a piece takes up. *)
Definition p_src (p : piece) : str := (if p_esc p then [c_bslash] else []) ++ p_text p.

(** Characters of which one or more in a row make one token. *)
Definition run_kind (c : char) : option token_kind :=
  if char_eqb c c_tilde then Some Tilde
  else if char_eqb c c_star then Some Star
  else if char_eqb c c_rcurly then Some RightCurlyBrace
  else if char_eqb c c_lcurly then Some LeftCurlyBrace
  else if char_eqb c c_space then Some Space
  else if char_eqb c c_minus then Some Minus
  else if char_eqb c c_hash then Some Hash
  else if char_eqb c c_gt then Some GreaterThan
  else if char_eqb c c_bang then Some Bang
  else if char_eqb c c_backtick then Some Backtick
  else if char_eqb c c_plus then Some Plus
  else None.

(** Characters that are a token of their own. *)
Definition single_kind (c : char) : option token_kind :=
  if char_eqb c c_lsquare then Some LeftSquareBracket
  else if char_eqb c c_rsquare then Some RightSquareBracket
  else if char_eqb c c_lparen then Some LeftParenthesis
  else if char_eqb c c_rparen then Some RightParenthesis
  else if char_eqb c c_underscore then Some Underscore
  else if char_eqb c c_pipe then Some Pipe
  else None.

(** The two-character tokens and the line endings at the front of [c :: s]. *)
Definition pair_kind (c : char) (s : str) : option (token_kind * str) :=
  if char_eqb c c_nl then Some (Eol, [c])
  else match s with
       | d :: _ =>
           if char_eqb c c_cr && char_eqb d c_nl then Some (Eol, [c; d])
           else if char_eqb c c_lcurly && char_eqb d c_percent then Some (CollapsibleStart, [c; d])
           else if char_eqb c c_percent && char_eqb d c_rcurly then Some (CollapsibleEnd, [c; d])
           else None
       | [] => None
       end.

Definition is_some {A} (o : option A) : bool := match o with Some _ => true | None => false end.

(** Does [c], followed by [s], end a literal?  A space does not. *)
Definition stops_literal (c : char) (s : str) : bool :=
  is_some (pair_kind c s) || char_eqb c c_bslash
  || (is_some (run_kind c) && negb (char_eqb c c_space)) || is_some (single_kind c).

(** The longest front part of [s] that continues a literal, and the rest. *)
Fixpoint lit_run (s : str) : str * str :=
  match s with
  | [] => ([], [])
  | c :: s' =>
      if stops_literal c s' then ([], s) else let (a, b) := lit_run s' in (c :: a, b)
  end.

(** The longest run of [c] at the front of [s], and the rest. *)
Fixpoint char_run (c : char) (s : str) : str * str :=
  match s with
  | [] => ([], [])
  | d :: s' => if char_eqb d c then let (a, b) := char_run c s' in (d :: a, b) else ([], s)
  end.

(** The first piece of the text and what follows it; a lone final backslash gives none. *)
Definition scan_one (s : str) : option (piece * str) :=
  match s with
  | [] => None
  | c :: s' =>
      match pair_kind c s' with
      | Some (k, t) => Some (mk_piece k t false, skipn (length t - 1) s')
      | None =>
          if char_eqb c c_bslash then
            match s' with
            | [] => None
            | d :: s2 => let (a, b) := lit_run s2 in Some (mk_piece Literal (d :: a) true, b)
            end
          else
            match run_kind c with
            | Some k => let (a, b) := char_run c s' in Some (mk_piece k (c :: a) false, b)
            | None =>
                match single_kind c with
                | Some k => Some (mk_piece k [c] false, s')
                | None => let (a, b) := lit_run s' in Some (mk_piece Literal (c :: a) false, b)
                end
            end
      end
  end.

(** All pieces ([n] bounds their number; [length s] suffices). *)
Fixpoint scan (n : nat) (s : str) : list piece :=
  match n with
  | 0 => []
  | S n' => match scan_one s with None => [] | Some (p, r) => p :: scan n' r end
  end.
Definition raw_pieces (s : str) : list piece := scan (length s) s.

(** Two line endings in a row are one [Terminator]. *)
Fixpoint merge (l : list piece) : list piece :=
  match l with
  | [] => []
  | p :: l1 =>
      match l1 with
      | q :: l2 =>
          if kind_eqb (p_kind p) Eol && kind_eqb (p_kind q) Eol
          then mk_piece Terminator (p_text p ++ p_text q) false :: merge l2
          else p :: merge l1
      | [] => [p]
      end
  end.

Definition pieces (s : str) : list piece := merge (raw_pieces s).

(** Line endings in a piece. *)
Definition kind_rows (k : token_kind) : nat :=
  match k with Eol => 1 | Terminator => 2 | _ => 0 end.

(** Put positions on pieces: [o] bytes, [col] characters since the last line ending and [r] line
    endings come before. *)
Fixpoint annotate (o col r : nat) (l : list piece) : list token :=
  match l with
  | [] => []
  | p :: l' =>
      let b := o + (if p_esc p then 1 else 0) in
      let e := b + byte_len (p_text p) in
      mk_token (p_kind p) b e (mk_pos b col r) (p_esc p)
      :: annotate e (if kind_rows (p_kind p) =? 0 then col + length (p_text p) else 0)
           (r + kind_rows (p_kind p)) l'
  end.

Definition spec_tokens (s : str) : list token := annotate 0 0 0 (pieces s).
