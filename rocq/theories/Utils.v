(** Model of the utils crate: utils/src/commands/token_stat.rs and utils/src/commands/random.rs. *)
From Coq Require Import String Decimal.
From Verif Require Import Base Lexer.
Open Scope list_scope.

(** ** utils/src/commands/token_stat.rs *)

(** [" ".repeat(n)] (Rust alloc). *)
Definition spaces (n : nat) : str := repeat c_space n.

(** [21_usize.checked_sub(n).unwrap_or(1)]. *)
Definition gap (n : nat) : nat := if n <=? 21 then 21 - n else 1.

(** utils/src/commands/token_stat.rs 37-44: [tab]. *)
Definition tab (left right : str) : str :=
  left ++ s_ ":" ++ spaces (gap (byte_len left)) ++ right.

(** [usize::to_string] (Rust alloc): decimal digits. *)
Fixpoint digits (d : uint) : str :=
  match d with
  | Nil => []
  | D0 d => 48%N :: digits d | D1 d => 49%N :: digits d | D2 d => 50%N :: digits d
  | D3 d => 51%N :: digits d | D4 d => 52%N :: digits d | D5 d => 53%N :: digits d
  | D6 d => 54%N :: digits d | D7 d => 55%N :: digits d | D8 d => 56%N :: digits d
  | D9 d => 57%N :: digits d
  end.
Definition to_string (n : nat) : str := digits (Nat.to_uint n).

(** src/lexer/token.rs 7: derived [Debug] of [TokenKind]; the same names as its [Display], 55-82. *)
Definition kind_name (k : token_kind) : str :=
  match k with
  | Terminator => s_ "Terminator"
  | Eol => s_ "Eol"
  | LeftCurlyBrace => s_ "LeftCurlyBrace"
  | RightCurlyBrace => s_ "RightCurlyBrace"
  | CollapsibleStart => s_ "CollapsibleStart"
  | CollapsibleEnd => s_ "CollapsibleEnd"
  | Tilde => s_ "Tilde"
  | Star => s_ "Star"
  | Space => s_ "Space"
  | Minus => s_ "Minus"
  | Hash => s_ "Hash"
  | GreaterThan => s_ "GreaterThan"
  | Bang => s_ "Bang"
  | Backtick => s_ "Backtick"
  | Plus => s_ "Plus"
  | LeftSquareBracket => s_ "LeftSquareBracket"
  | RightSquareBracket => s_ "RightSquareBracket"
  | LeftParenthesis => s_ "LeftParenthesis"
  | RightParenthesis => s_ "RightParenthesis"
  | Underscore => s_ "Underscore"
  | Pipe => s_ "Pipe"
  | Literal => s_ "Literal"
  end.

(** [HashMap<TokenKind, usize>] as the list of its entries, and [entry(k).and_modify(+= 1).or_insert(1)]
    (9-11). *)
Definition stat_map := list (token_kind * nat).
Fixpoint count_up (k : token_kind) (m : stat_map) : stat_map :=
  match m with
  | [] => [(k, 1)]
  | (j, n) :: m' => if kind_eqb j k then (j, n + 1) :: m' else (j, n) :: count_up k m'
  end.

(** 8-13: the [fold] over the lexer. *)
Definition stat_of (ts : list token) : stat_map :=
  fold_left (fun acc t => count_up (kind t) acc) ts [].

(** 15: [stat.values().sum()]. *)
Definition sum_values (m : stat_map) : nat := fold_left (fun a e => a + snd e) m 0.

(** 31: [table.sort_by(|(_, left), (_, right)| right.cmp(left))], a stable sort. *)
Fixpoint insert_row (x : str * nat) (l : list (str * nat)) : list (str * nat) :=
  match l with
  | [] => [x]
  | y :: l' => if snd x <? snd y then y :: insert_row x l' else x :: l
  end.
Definition sort_rows (l : list (str * nat)) : list (str * nat) := fold_right insert_row [] l.

(** 32-34: one printed line of the table. *)
Definition print_row (r : str * nat) : str := tab (fst r) (to_string (snd r)) ++ [c_nl].

(** 5-35: [token_stat]. [file] is the result of [fs::read_to_string], [path] that of
    [path.to_str()]; [hash] is the order in which the map is iterated. The result is the text
    written to the standard output. *)
Definition token_stat (hash : stat_map -> stat_map) (file path : option str) : outcome str :=
  match file with
  | None => Panic
  | Some s =>
      let! ts := lex s in
      let stat := stat_of ts in
      let total := sum_values (hash stat) in
      let table := map (fun e => (kind_name (fst e), snd e)) (hash stat) in
      match path with
      | None => Panic
      | Some p =>
          Ok ([c_nl] ++ tab (s_ "Token statistics for") p ++ [c_nl; c_nl]
              ++ tab (s_ "Total token count") (to_string total) ++ [c_nl; c_nl]
              ++ concat (map print_row (sort_rows table)))
      end
  end.

(** ** utils/src/commands/random.rs *)

(** The random generator is the list of the numbers it is going to deliver; the functions below
    give the rest of the list back. A list that is used up is [OutOfFuel]. *)
Definition draws := list N.

(** [rng.gen::<u32>()]. *)
Definition as_u32 (d : N) : N := (d mod 4294967296)%N.
(** [rng.gen_range(0..=n)]. *)
Definition in_incl (n : nat) (d : N) : nat := N.to_nat (d mod (N.of_nat n + 1)).
(** [rng.gen_range(a..b)]: panics on an empty range. *)
Definition in_range (a b : nat) (d : N) : outcome nat :=
  if a <? b then Ok (a + N.to_nat (d mod N.of_nat (b - a))) else Panic.

(** [char::from_u32] (Rust core). *)
Definition from_u32 (n : N) : option char :=
  if ((n <? 55296) || (57344 <=? n) && (n <? 1114112))%N then Some n else None.

(** utils/src/commands/random.rs 63-68: [random_char]. *)
Fixpoint random_char (ds : draws) : outcome (char * draws) :=
  match ds with
  | [] => OutOfFuel
  | d :: ds' =>
      match from_u32 (as_u32 d) with
      | Some c => Ok (c, ds')
      | None => random_char ds'
      end
  end.

(** 70-76: [random_string]; [acc] is the string so far. *)
Fixpoint random_string (n : nat) (acc : str) (ds : draws) : outcome (str * draws) :=
  match n with
  | 0 => Ok (acc, ds)
  | S n' => let! (c, ds') := random_char ds in random_string n' (acc ++ [c]) ds'
  end.

(** 35-55: the texts of the arms 0 to 20. *)
Definition piece_text (i : nat) : option str :=
  match i with
  | 0 => Some [c_nl; c_nl]
  | 1 => Some [c_nl]
  | 2 => Some (s_ "{")
  | 3 => Some (s_ "}")
  | 4 => Some (s_ "{%")
  | 5 => Some (s_ "%}")
  | 6 => Some (s_ "~")
  | 7 => Some (s_ "*")
  | 8 => Some (s_ " ")
  | 9 => Some (s_ "-")
  | 10 => Some (s_ "#")
  | 11 => Some (s_ ">")
  | 12 => Some (s_ "!")
  | 13 => Some (s_ "`")
  | 14 => Some (s_ "+")
  | 15 => Some (s_ "[")
  | 16 => Some (s_ "]")
  | 17 => Some (s_ "(")
  | 18 => Some (s_ ")")
  | 19 => Some (s_ "_")
  | 20 => Some (s_ "|")
  | _ => None
  end.

(** 34-57: the match of one pass of the loop. *)
Definition random_piece (max_literal_len : nat) (ds : draws) : outcome (str * draws) :=
  match ds with
  | [] => OutOfFuel
  | d :: ds1 =>
      match piece_text (in_incl 21 d) with
      | Some t => Ok (t, ds1)
      | None =>
          match ds1 with
          | [] => if 3 <? max_literal_len then OutOfFuel else Panic
          | e :: ds2 =>
              let! n := in_range 3 max_literal_len e in
              random_string n [] ds2
          end
      end
  end.

(** 33-59: the loop, [out] is the string so far. *)
Fixpoint random_loop (fuel length max_literal_len : nat) (out : str) (ds : draws) : outcome str :=
  if byte_len out <? length then
    match fuel with
    | 0 => OutOfFuel
    | S fuel' =>
        let! (t, ds') := random_piece max_literal_len ds in
        random_loop fuel' length max_literal_len (out ++ t) ds'
    end
  else Ok out.

(** 4-61: [random]; the result is the text printed, without the line feed of [println!]. Every pass
    of the loop takes a draw, so [S] of their number is enough fuel. *)
Definition random (length max_literal_len : nat) (ds : draws) : outcome str :=
  random_loop (S (List.length ds)) length max_literal_len [] ds.

(** 7-30: the table of the kinds by number. *)
Definition kind_number (k : token_kind) : nat :=
  match k with
  | Terminator => 0 | Eol => 1 | LeftCurlyBrace => 2 | RightCurlyBrace => 3
  | CollapsibleStart => 4 | CollapsibleEnd => 5 | Tilde => 6 | Star => 7 | Space => 8 | Minus => 9
  | Hash => 10 | GreaterThan => 11 | Bang => 12 | Backtick => 13 | Plus => 14
  | LeftSquareBracket => 15 | RightSquareBracket => 16 | LeftParenthesis => 17
  | RightParenthesis => 18 | Underscore => 19 | Pipe => 20 | Literal => 21
  end.
