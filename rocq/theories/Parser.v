(** Model of src/op/parser.rs and of the node parsers src/op/*.rs.

    A function taking [&mut Parser] becomes a function from a parser state to the new state.
    Loops run on fuel (they get one unit more than there are tokens); running out is [OutOfFuel]. *)
From Verif Require Import Base Lexer Ops.

(** ** src/op/parser.rs *)

(** src/op/parser.rs 8-13: [ListKind]. *)
Inductive list_kind := Unordered | Ordered.
Definition list_kind_eqb (a b : list_kind) : bool :=
  match a, b with Unordered, Unordered | Ordered, Ordered => true | _, _ => false end.

(** src/op/parser.rs 16-21: [ListKind::node]. *)
Definition list_kind_node (k : list_kind) : node :=
  match k with Unordered => NUnorderedList | Ordered => NOrderedList end.

(** src/op/parser.rs 24-36: [ListKind::try_from(&Token)]. *)
Definition list_kind_of (t : token) : option list_kind :=
  if kind_eqb (kind t) Minus && (tlen t =? 1) then Some Unordered
  else if kind_eqb (kind t) Plus && (tlen t =? 1) then Some Ordered
  else None.

(** src/op/parser.rs 44-53: [StopCondition]. *)
Inductive stop_condition :=
| StopTerminator
| StopCollapsibleEnd
| StopHighlightEnd
| StopListBoundary (level : nat) (k : list_kind).

(** src/op/parser.rs 132-138: [Parser]. [eof_stack] has the top of the Rust [Vec] first. *)
Record parser := mk_parser {
  source : str; tokens : list token; pos : nat;
  eof_stack : list stop_condition; ops : list op }.

Definition set_pos (n : nat) (p : parser) : parser :=
  mk_parser (source p) (tokens p) n (eof_stack p) (ops p).
Definition set_ops (o : list op) (p : parser) : parser :=
  mk_parser (source p) (tokens p) (pos p) (eof_stack p) o.
Definition set_stack (st : list stop_condition) (p : parser) : parser :=
  mk_parser (source p) (tokens p) (pos p) st (ops p).

(** [Vec::push], [Vec::truncate], [Vec::insert] on [p.ops]; [insert] panics beyond the end. *)
Definition push_op (o : op) (p : parser) : parser := set_ops (ops p ++ [o]) p.
Definition truncate_ops (n : nat) (p : parser) : parser := set_ops (firstn n (ops p)) p.
Definition insert_op (i : nat) (o : op) (p : parser) : outcome parser :=
  if i <=? length (ops p)
  then Ok (set_ops (firstn i (ops p) ++ o :: skipn i (ops p)) p)
  else Panic.

(** src/op/parser.rs 140-150: [Parser::from]. *)
Definition parser_from (input : str) : outcome parser :=
  let! ts := lex input in
  Ok (mk_parser input ts 0 [] []).

(** src/op/parser.rs 155-157: [get]. *)
Definition get (i : nat) (p : parser) : option token := nth_error (tokens p) i.

(** src/op/parser.rs 161-163: [peek] (the position is [pos p]). *)
Definition peek (p : parser) : option token := nth_error (tokens p) (pos p).

(** src/op/parser.rs 167-171: [next]. *)
Definition next (p : parser) : parser :=
  if pos p <? length (tokens p) then set_pos (pos p + 1) p else p.

(** src/op/parser.rs 175-184: [eat]; the token index range is a pair. *)
Definition eat (pred : token -> bool) (p : parser) : option (nat * nat) * parser :=
  match nth_error (tokens p) (pos p) with
  | None => (None, p)
  | Some t =>
      if pred t then (Some (pos p, pos p + 1), set_pos (pos p + 1) p) else (None, p)
  end.

(** [Option::is_some_and] *)
Definition is_some_and {A} (f : A -> bool) (o : option A) : bool :=
  match o with Some a => f a | None => false end.

(** src/op/parser.rs 188-190: [at]. *)
Definition at_ (pred : token -> bool) (p : parser) : bool := is_some_and pred (peek p).

(** src/op/parser.rs 55-57: [is_list_marker]. *)
Definition is_list_marker (k : option list_kind) (t : token) : bool :=
  match list_kind_of t with
  | None => false
  | Some k' => match k with None => true | Some want => list_kind_eqb k' want end
  end.

(** src/op/parser.rs 59-61: [is_space_1]; also the [is_space] of list.rs, heading.rs,
    highlight.rs. *)
Definition is_space_1 (t : token) : bool := kind_eqb (kind t) Space && (tlen t =? 1).

(** Column test used by most block parsers: [t.position.column == 0]. *)
Definition col0 (t : token) : bool := column (t_pos t) =? 0.

(** src/op/parser.rs 63-99: [at_list_boundary]. *)
Definition at_list_boundary (p : parser) (current_level max_level : nat) (k : list_kind) : bool :=
  existsb
    (fun level =>
       let k' := if level =? current_level then Some k else None in
       if level =? 0 then
         is_some_and col0 (get (pos p) p)
         && (is_some_and (is_list_marker k') (get (pos p) p)
             && is_some_and is_space_1 (get (pos p + 1) p))
       else
         is_some_and col0 (get (pos p) p)
         && (is_some_and (fun t => kind_eqb (kind t) Space && (tlen t =? level)) (get (pos p) p)
             && (is_some_and (is_list_marker k') (get (pos p + 1) p)
                 && is_some_and is_space_1 (get (pos p + 2) p))))
    (seq 0 (S max_level)).

(** src/op/parser.rs 102-121: [StopCondition::matches]. *)
Definition matches (c : stop_condition) (t : token) (p : parser) : bool :=
  match c with
  | StopTerminator => kind_eqb (kind t) Terminator
  | StopCollapsibleEnd =>
      (kind_eqb (kind t) CollapsibleEnd && col0 t)
      || (kind_eqb (kind t) Eol
          && is_some_and (fun u => kind_eqb (kind u) CollapsibleEnd && col0 u)
               (get (pos p + 1) p))
  | StopHighlightEnd => kind_eqb (kind t) Bang && col0 t && (tlen t =? 2)
  | StopListBoundary level k => col0 t && at_list_boundary p level (level + 1) k
  end.

(** src/op/parser.rs 195-200: [with_eof]. *)
Definition with_eof {A} (c : stop_condition) (f : parser -> outcome (A * parser)) (p : parser)
  : outcome (A * parser) :=
  let! (r, p1) := f (set_stack (c :: eof_stack p) p) in
  Ok (r, set_stack (tl (eof_stack p1)) p1).

(** src/op/parser.rs 203-216: [with_eofs]; [rev_append] because the last one pushed is on top. *)
Definition with_eofs {A} (cs : list stop_condition) (f : parser -> outcome (A * parser))
  (p : parser) : outcome (A * parser) :=
  let! (r, p1) := f (set_stack (rev_append cs (eof_stack p)) p) in
  Ok (r, set_stack (skipn (length cs) (eof_stack p1)) p1).

(** src/op/parser.rs 221-226: [with_no_stops]. *)
Definition with_no_stops {A} (f : parser -> outcome (A * parser)) (p : parser)
  : outcome (A * parser) :=
  let saved := eof_stack p in
  let! (r, p1) := f (set_stack [] p) in
  Ok (r, set_stack saved p1).

(** src/op/parser.rs 230-235: [at_eof]. *)
Definition at_eof (p : parser) : bool :=
  match peek p with
  | None => true
  | Some t => existsb (fun c => matches c t p) (eof_stack p)
  end.

(** src/op/parser.rs 240-244: [flip_to_literal]. *)
Definition literal_of (t : token) : token :=
  mk_token Literal (t_start t) (t_end t) (t_pos t) (escaped t).
Definition flip_to_literal (i : nat) (p : parser) : parser :=
  match nth_error (tokens p) i with
  | None => p
  | Some t =>
      mk_parser (source p) (firstn i (tokens p) ++ literal_of t :: skipn (S i) (tokens p))
        (pos p) (eof_stack p) (ops p)
  end.

(** src/op/parser.rs 248-250: [at_block_boundary]. *)
Definition at_block_boundary (p : parser) : bool :=
  at_eof p || at_ (fun t => kind_eqb (kind t) Terminator) p.

(** Fuel given to every loop: one turn more than there are tokens. *)
Definition loop_fuel (p : parser) : nat := S (length (tokens p)).

(** src/op/parser.rs 256-275: [eat_until]. *)
Fixpoint eat_until_loop (fuel : nat) (start : nat) (matcher : token -> bool) (p : parser)
  : outcome (option ((nat * nat) * (nat * nat)) * parser) :=
  match fuel with
  | 0 => OutOfFuel
  | S f =>
      match nth_error (tokens p) (pos p) with
      | None => Ok (None, set_pos start p)
      | Some t =>
          if at_eof p then Ok (None, set_pos start p)
          else if matcher t then
            Ok (Some ((start, pos p), (pos p, pos p + 1)), set_pos (pos p + 1) p)
          else eat_until_loop f start matcher (set_pos (pos p + 1) p)
      end
  end.
Definition eat_until (matcher : token -> bool) (p : parser)
  : outcome (option ((nat * nat) * (nat * nat)) * parser) :=
  eat_until_loop (loop_fuel p) (pos p) matcher p.

(** src/op/parser.rs 281-293: [span]; [&self.tokens[range]] panics out of range. *)
Definition span (r : nat * nat) (p : parser) : outcome content :=
  let '(a, b) := r in
  if a <? b then
    if b <=? length (tokens p) then
      let ts := firstn (b - a) (skipn a (tokens p)) in
      if existsb escaped ts then from_tokens ts (source p) else first_last_span ts
    else Panic
  else Ok (Span 0 0).

(** src/op/parser.rs 303-305 and the [is_eol] of several files. *)
Definition is_eol (t : token) : bool := kind_eqb (kind t) Eol.

(** src/op/parser.rs 310-320: [eat_seq!]. *)
Fixpoint eat_all (preds : list (token -> bool)) (p : parser) : bool * parser :=
  match preds with
  | [] => (true, p)
  | f :: fs =>
      match eat f p with
      | (Some _, p1) => eat_all fs p1
      | (None, p1) => (false, p1)
      end
  end.
Definition eat_seq (preds : list (token -> bool)) (p : parser) : option (nat * nat) * parser :=
  let start := pos p in
  match eat_all preds p with
  | (true, p1) => (Some (start, pos p1), p1)
  | (false, p1) => (None, set_pos start p1)
  end.

(** [a(p) || b(p)] *)
Definition orelse (f g : parser -> outcome (bool * parser)) (p : parser)
  : outcome (bool * parser) :=
  let! (b, p1) := f p in if b then Ok (true, p1) else g p1.

(** Push [Start n], [Value], [End n] for three token ranges: the common tail of metadata.rs 21-27,
    title.rs 23-29, italic.rs 20-26, strikethrough.rs 19-26, emphasis.rs 19-25, code_span.rs 19-25,
    highlight.rs 44-50. All spans are computed before the first push. *)
Definition push_leaf (n : node) (s b e : nat * nat) (p : parser) : outcome (bool * parser) :=
  let! cs := span s p in
  let! cb := span b p in
  let! ce := span e p in
  Ok (true, push_op (new_end n ce) (push_op (new_value cb) (push_op (new_start n cs) p))).

(** The shape shared by metadata.rs 10-28, title.rs 14-30, italic.rs 11-27, strikethrough.rs
    10-27, emphasis.rs 10-26, code_span.rs 10-26: eat an opening token, scan for a closing one,
    push three ops. *)
Definition delimited (n : node) (is_open is_close : token -> bool) (p : parser)
  : outcome (bool * parser) :=
  let start := pos p in
  match eat is_open p with
  | (None, p1) => Ok (false, p1)
  | (Some start_range, p1) =>
      let! (o, p2) := eat_until is_close p1 in
      match o with
      | None => Ok (false, set_pos start p2)
      | Some (body_range, end_range) => push_leaf n start_range body_range end_range p2
      end
  end.

(** ** Inline nodes *)

(** src/op/metadata.rs 6-8. *)
Definition is_three_dashes (t : token) : bool :=
  kind_eqb (kind t) Minus && col0 t && (tlen t =? 3).
(** src/op/metadata.rs 10-28. *)
Definition metadata : parser -> outcome (bool * parser) :=
  delimited NMetadata is_three_dashes is_three_dashes.

(** src/op/title.rs 6-12. *)
Definition is_left_bracket (t : token) : bool := kind_eqb (kind t) LeftSquareBracket && (tlen t =? 1).
Definition is_right_bracket (t : token) : bool := kind_eqb (kind t) RightSquareBracket && (tlen t =? 1).
(** src/op/title.rs 14-30. *)
Definition title : parser -> outcome (bool * parser) :=
  delimited NTitle is_left_bracket is_right_bracket.

(** src/op/italic.rs 7-9, 11-27. *)
Definition is_underscore (t : token) : bool := kind_eqb (kind t) Underscore && (tlen t =? 1).
Definition italic : parser -> outcome (bool * parser) := delimited NItalic is_underscore is_underscore.

(** src/op/strikethrough.rs 6-8, 10-27. *)
Definition is_tilde (t : token) : bool := kind_eqb (kind t) Tilde && (tlen t =? 2).
Definition strikethrough : parser -> outcome (bool * parser) :=
  delimited NStrikethrough is_tilde is_tilde.

(** src/op/emphasis.rs 6-8, 10-26. *)
Definition is_star (t : token) : bool := kind_eqb (kind t) Star && (tlen t =? 1).
Definition emphasis : parser -> outcome (bool * parser) := delimited NEmphasis is_star is_star.

(** src/op/code_span.rs 6-8, 10-26. *)
Definition is_backtick (t : token) : bool := kind_eqb (kind t) Backtick && (tlen t =? 1).
Definition code_span : parser -> outcome (bool * parser) := delimited NCodeSpan is_backtick is_backtick.

(** src/op/destination.rs 6-8. *)
Definition is_left_paren (t : token) : bool := kind_eqb (kind t) LeftParenthesis && (tlen t =? 1).

(** src/op/destination.rs 16-39: the loop, returning [end_pos]. The counter starts at 1 and the
    loop stops at 0, so a natural number models the [i32]. *)
Fixpoint destination_loop (fuel : nat) (paren_count end_pos : nat) (p : parser)
  : outcome (nat * parser) :=
  match fuel with
  | 0 => OutOfFuel
  | S f =>
      match peek p with
      | None => Ok (end_pos, p)
      | Some t =>
          if at_eof p then Ok (end_pos, p)
          else
            let p1 := set_pos (pos p + 1) p in
            match kind t with
            | LeftParenthesis => destination_loop f (paren_count + 1) end_pos p1
            | RightParenthesis =>
                if paren_count - 1 =? 0 then Ok (pos p, p1)
                else destination_loop f (paren_count - 1) (pos p) p1
            | _ => destination_loop f paren_count end_pos p1
            end
      end
  end.

(** src/op/destination.rs 10-55. *)
Definition destination (p : parser) : outcome (bool * parser) :=
  let start := pos p in
  match eat is_left_paren p with
  | (None, p1) => Ok (false, p1)
  | (Some start_range, p1) =>
      let! (end_pos, p2) := destination_loop (loop_fuel p) 1 start p1 in
      if start =? end_pos then Ok (false, set_pos start p2)
      else
        let! cs := span start_range p2 in
        let! cb := span (start + 1, end_pos) p2 in
        let! ce := span (end_pos, end_pos + 1) p2 in
        Ok (true,
            push_op (new_end NDestination ce)
              (push_op (new_value cb)
                 (push_op (new_start NDestination cs) (set_pos (end_pos + 1) p2))))
  end.

(** src/op/anchor.rs 3-14. *)
Definition anchor (p : parser) : outcome (bool * parser) :=
  let start := pos p in
  let snap := length (ops p) in
  let p0 := push_op (new_start NAnchor no_content) p in
  let! (b1, p1) := title p0 in
  if negb b1 then Ok (false, truncate_ops snap (set_pos start p1))
  else
    let! (b2, p2) := destination p1 in
    if negb b2 then Ok (false, truncate_ops snap (set_pos start p2))
    else Ok (true, push_op (new_end NAnchor no_content) p2).

(** [if let Some(s) = text_start.take() { let content = p.span(s..e); p.ops.push(value) }] *)
Definition push_text (text_start : option nat) (e : nat) (p : parser) : outcome parser :=
  match text_start with
  | None => Ok p
  | Some s => let! c := span (s, e) p in Ok (push_op (new_value c) p)
  end.

(** [if let Some(s) = text_start.take() { let content = p.span(s..e); p.ops.insert(i, value) }] *)
Definition insert_text (text_start : option nat) (e i : nat) (p : parser) : outcome parser :=
  match text_start with
  | None => Ok p
  | Some s => let! c := span (s, e) p in insert_op i (new_value c) p
  end.

(** [text_start.get_or_insert(pos)] *)
Definition or_start (text_start : option nat) (i : nat) : option nat :=
  match text_start with Some s => Some s | None => Some i end.

(** src/op/bold.rs 6-8. *)
Definition is_star2 (t : token) : bool := kind_eqb (kind t) Star && (tlen t =? 2).

(** src/op/bold.rs 22-48: the loop; returns [found_end]. *)
Fixpoint bold_loop (fuel : nat) (text_start : option nat) (p : parser) : outcome (bool * parser) :=
  match fuel with
  | 0 => OutOfFuel
  | S f =>
      match peek p with
      | None => Ok (false, p)
      | Some _ =>
          let pos0 := pos p in
          if at_eof p then Ok (false, p)
          else
            match eat is_star2 p with
            | (Some end_range, p1) =>
                let! p2 := push_text text_start pos0 p1 in
                let! c := span end_range p2 in
                Ok (true, push_op (new_end NBold c) p2)
            | (None, p1) =>
                let before_snap := length (ops p1) in
                let! (matched, p2) := orelse strikethrough italic p1 in
                if matched then
                  let! p3 := insert_text text_start pos0 before_snap p2 in
                  bold_loop f None p3
                else bold_loop f (or_start text_start pos0) (next p2)
            end
      end
  end.

(** src/op/bold.rs 10-57. *)
Definition bold (p : parser) : outcome (bool * parser) :=
  let start := pos p in
  let snap := length (ops p) in
  match eat is_star2 p with
  | (None, p1) => Ok (false, p1)
  | (Some start_range, p1) =>
      let! c := span start_range p1 in
      let! (found_end, p2) := bold_loop (loop_fuel p) None (push_op (new_start NBold c) p1) in
      if found_end then Ok (true, p2)
      else Ok (false, truncate_ops snap (set_pos start p2))
  end.

(** src/op/paragraph.rs 13-14: the alternatives in order. *)
Definition inline_node : parser -> outcome (bool * parser) :=
  orelse strikethrough (orelse italic (orelse bold (orelse anchor (orelse code_span emphasis)))).

(** src/op/paragraph.rs 10-24: the loop; returns [text_start]. *)
Fixpoint paragraph_loop (fuel : nat) (text_start : option nat) (p : parser)
  : outcome (option nat * parser) :=
  match fuel with
  | 0 => OutOfFuel
  | S f =>
      if at_eof p then Ok (text_start, p)
      else
        let pos0 := pos p in
        let snap := length (ops p) in
        let! (matched, p1) := inline_node p in
        if matched then
          let! p2 := insert_text text_start pos0 snap p1 in
          paragraph_loop f None p2
        else paragraph_loop f (or_start text_start (pos p1)) (next p1)
  end.

(** src/op/paragraph.rs 6-32. *)
Definition paragraph (p : parser) : outcome (unit * parser) :=
  let p0 := push_op (new_start NParagraph no_content) p in
  let! (text_start, p1) := paragraph_loop (loop_fuel p) None p0 in
  let! p2 := push_text text_start (pos p1) p1 in
  Ok (tt, push_op (new_end NParagraph no_content) p2).

(** ** Block nodes *)

(** src/op/heading.rs 6-8. *)
Definition is_hash (t : token) : bool := kind_eqb (kind t) Hash && col0 t && (tlen t <=? 6).

(** src/op/heading.rs 22-38: the loop; returns [text_start]. *)
Fixpoint heading_loop (fuel : nat) (text_start : option nat) (p : parser)
  : outcome (option nat * parser) :=
  match fuel with
  | 0 => OutOfFuel
  | S f =>
      match peek p with
      | None => Ok (text_start, p)
      | Some _ =>
          if at_eof p then Ok (text_start, p)
          else
            let before_pos := pos p in
            let before_snap := length (ops p) in
            let! (b, p1) := anchor p in
            if b then
              let! p2 := insert_text text_start before_pos before_snap p1 in
              heading_loop f None p2
            else heading_loop f (or_start text_start before_pos) (next p1)
      end
  end.

(** src/op/heading.rs 14-46. *)
Definition heading (p : parser) : outcome (bool * parser) :=
  match eat_seq [is_hash; is_space_1] p with
  | (None, p1) => Ok (false, p1)
  | (Some start_range, p1) =>
      let! c := span start_range p1 in
      let! (text_start, p2) := heading_loop (loop_fuel p) None (push_op (new_start NHeading c) p1) in
      let! p3 := push_text text_start (pos p2) p2 in
      Ok (true, push_op (new_end NHeading no_content) p3)
  end.

(** src/op/image.rs 6-8. *)
Definition is_bang (t : token) : bool := kind_eqb (kind t) Bang && (tlen t =? 1).

(** src/op/image.rs 14-48. *)
Definition image (p : parser) : outcome (bool * parser) :=
  let start := pos p in
  let snap := length (ops p) in
  match eat is_bang p with
  | (None, p1) => Ok (false, p1)
  | (Some start_range, p1) =>
      let! c := span start_range p1 in
      let! (b1, p2) := title (push_op (new_start NImage c) p1) in
      if negb b1 then Ok (false, truncate_ops snap (set_pos start p2))
      else
        let! (b2, p3) := destination p2 in
        if negb b2 then Ok (false, truncate_ops snap (set_pos start p3))
        else
          match eat is_eol p3 with
          | (Some eol_range, p4) =>
              let! ce := span eol_range p4 in
              Ok (true, push_op (new_end NImage ce) p4)
          | (None, p4) =>
              if at_eof p4 then Ok (true, push_op (new_end NImage no_content) p4)
              else Ok (false, truncate_ops snap (set_pos start p4))
          end
  end.

(** src/op/images.rs 7-17: the loop; [None] is the early [return false]. *)
Fixpoint images_loop (fuel : nat) (start snap count : nat) (p : parser)
  : outcome (option nat * parser) :=
  match fuel with
  | 0 => OutOfFuel
  | S f =>
      match peek p with
      | None => Ok (Some count, p)
      | Some _ =>
          let! (b, p1) := image p in
          if b then images_loop f start snap (count + 1) p1
          else if at_eof p1 then Ok (Some count, p1)
          else Ok (None, truncate_ops snap (set_pos start p1))
      end
  end.

(** src/op/images.rs 3-25. *)
Definition images (p : parser) : outcome (bool * parser) :=
  let start := pos p in
  let snap := length (ops p) in
  let! (o, p1) := images_loop (loop_fuel p) start snap 0 p in
  match o with
  | None => Ok (false, p1)
  | Some count =>
      if 1 <? count then
        let! p2 := insert_op snap (new_start NImages no_content) p1 in
        Ok (0 <? count, push_op (new_end NImages no_content) p2)
      else Ok (0 <? count, p1)
  end.

(** src/op/modifier.rs 6-8. *)
Definition is_eol_or_terminator (t : token) : bool :=
  kind_eqb (kind t) Eol || kind_eqb (kind t) Terminator.

(** src/op/modifier.rs 10-26. *)
Definition modifier (p : parser) : outcome (bool * parser) :=
  if is_some_and col0 (peek p) then Ok (false, p)
  else
    let! (o, p1) := eat_until is_eol_or_terminator p in
    match o with
    | None => Ok (false, p1)
    | Some (body_range, end_range) =>
        let! cb := span body_range p1 in
        let! ce := span end_range p1 in
        Ok (true,
            push_op (new_end NModifier ce)
              (push_op (new_value cb) (push_op (new_start NModifier no_content) p1)))
    end.

(** src/op/thematic_break.rs 6-8, 10-21. *)
Definition is_dash5 (t : token) : bool := kind_eqb (kind t) Minus && col0 t && (tlen t =? 5).
Definition thematic_break (p : parser) : outcome (bool * parser) :=
  match eat is_dash5 p with
  | (None, p1) => Ok (false, p1)
  | (Some range, p1) =>
      let! c := span range p1 in
      Ok (true,
          push_op (new_end NThematicBreak no_content)
            (push_op (new_value c) (push_op (new_start NThematicBreak no_content) p1)))
  end.

(** src/op/list.rs 24-30: the indentation test. *)
Definition is_indent (level : nat) (t : token) : bool :=
  kind_eqb (kind t) Space && (tlen t =? level).

(** src/op/list.rs 14-52 and 54-69: [list_item] and [list_inner], mutually recursive; the
    [while] of [list_inner] is [list_items]. *)
Fixpoint list_item (fuel : nat) (level : nat) (k : option list_kind) (p : parser)
  : outcome (option list_kind * parser) :=
  match fuel with
  | 0 => OutOfFuel
  | S f =>
      if negb (at_ col0 p) then Ok (None, p)
      else
        let marker_idx := pos p + (if level =? 0 then 0 else 1) in
        match get marker_idx p with
        | None => Ok (None, p)
        | Some m =>
            match list_kind_of m with
            | None => Ok (None, p)
            | Some marker_kind =>
                let preds := if level =? 0 then [is_list_marker k; is_space_1]
                             else [is_indent level; is_list_marker k; is_space_1] in
                match eat_seq preds p with
                | (None, p1) => Ok (None, p1)
                | (Some start_range, p1) =>
                    let! c := span start_range p1 in
                    let p2 := push_op (new_start NListItem c) p1 in
                    let! (_, p3) := with_eof (StopListBoundary level marker_kind) paragraph p2 in
                    let! p4 :=
                      (if negb (at_eof p3) then
                         let! (_, q) := list_inner f (level + 1) p3 in Ok q
                       else Ok p3) in
                    Ok (Some marker_kind, push_op (new_end NListItem no_content) p4)
                end
            end
        end
  end
with list_inner (fuel : nat) (level : nat) (p : parser)
  : outcome (option list_kind * parser) :=
  match fuel with
  | 0 => OutOfFuel
  | S f =>
      let snap := length (ops p) in
      let! (o, p1) := list_item f level None p in
      match o with
      | None => Ok (None, p1)
      | Some lk =>
          let! p2 := insert_op snap (new_start (list_kind_node lk) no_content) p1 in
          let! p3 := list_items f level lk p2 in
          Ok (Some lk, push_op (new_end (list_kind_node lk) no_content) p3)
      end
  end
with list_items (fuel : nat) (level : nat) (lk : list_kind) (p : parser) : outcome parser :=
  match fuel with
  | 0 => OutOfFuel
  | S f =>
      let! (o, p1) := list_item f level (Some lk) p in
      match o with
      | None => Ok p1
      | Some _ => list_items f level lk p1
      end
  end.

(** src/op/list.rs 71-73: [list]. *)
Definition list_ (level : nat) (p : parser) : outcome (bool * parser) :=
  let! (o, p1) := list_inner (2 * length (tokens p) + 3) level p in
  Ok (match o with Some _ => true | None => false end, p1).

(** src/op/highlight.rs 11-29. *)
Definition is_two_bangs (t : token) : bool := kind_eqb (kind t) Bang && col0 t && (tlen t =? 2).
Definition is_one_bang (t : token) : bool := kind_eqb (kind t) Bang && col0 t && (tlen t =? 1).
Definition is_terminator (t : token) : bool := kind_eqb (kind t) Terminator.

(** src/op/highlight.rs 31-51: [icon]. *)
Definition icon (p : parser) : outcome (bool * parser) :=
  let start := pos p in
  let snap := length (ops p) in
  match eat_seq [is_one_bang; is_space_1] p with
  | (None, p1) => Ok (false, p1)
  | (Some start_range, p1) =>
      let! (o, p2) := eat_until is_eol p1 in
      match o with
      | None => Ok (false, truncate_ops snap (set_pos start p2))
      | Some (body_range, end_range) => push_leaf NIcon start_range body_range end_range p2
      end
  end.

(** src/op/highlight.rs 80-107: the loop. [true] is the early [return true]. The
    [debug_assert!] of 103-106 is a panic when there was no progress (it is compiled only in
    debug builds; there the release build would loop for ever). *)
Fixpoint highlight_loop (fuel : nat) (p : parser) : outcome (bool * parser) :=
  match fuel with
  | 0 => OutOfFuel
  | S f =>
      if at_eof p then Ok (false, p)
      else
        let before := pos p in
        match eat is_two_bangs p with
        | (Some close_range, p1) =>
            let '(end_range, p2) :=
              match eat is_eol p1 with
              | (Some eol_range, p2) => ((fst close_range, snd eol_range), p2)
              | (None, p2) => (close_range, p2)
              end in
            let! c := span end_range p2 in
            Ok (true, push_op (new_end NHighlight c) p2)
        | (None, p1) =>
            let! p2 :=
              match eat is_terminator p1 with
              | (Some term_range, p2) =>
                  let! c := span term_range p2 in Ok (push_op (new_value c) p2)
              | (None, p2) => Ok p2
              end in
            let! (_, p3) := with_eofs [StopHighlightEnd; StopTerminator] paragraph p2 in
            if before <? pos p3 then highlight_loop f p3 else Panic
        end
  end.

(** src/op/highlight.rs 53-112: [highlight]. *)
Definition highlight (p : parser) : outcome (bool * parser) :=
  let start := pos p in
  let snap := length (ops p) in
  match eat_seq [is_two_bangs; fun t => is_space_1 t || is_eol t] p with
  | (None, p1) => Ok (false, p1)
  | (Some start_range, p1) =>
      let skip_title := is_some_and is_eol (get (snd start_range - 1) p1) in
      let! c := span start_range p1 in
      let p2 := push_op (new_start NHighlight c) p1 in
      let! (_, p3) := (if negb skip_title then modifier p2 else Ok (false, p2)) in
      let! (_, p4) := with_eof StopTerminator icon p3 in
      if negb (at_ col0 p4) then Ok (false, truncate_ops snap (set_pos start p4))
      else
        let! (b, p5) := highlight_loop (loop_fuel p) p4 in
        if b then Ok (true, p5)
        else Ok (false, truncate_ops snap (set_pos start p5))
  end.

(** src/op/embed.rs 6-16. *)
Definition is_left_curly2 (t : token) : bool :=
  kind_eqb (kind t) LeftCurlyBrace && col0 t && (tlen t =? 2).
Definition is_pipe (t : token) : bool := kind_eqb (kind t) Pipe && (tlen t =? 1).
Definition is_right_curly2 (t : token) : bool :=
  kind_eqb (kind t) RightCurlyBrace && (tlen t =? 2).

(** src/op/embed.rs 38-45 and src/op/code.rs 45-53: the optional line ending after the closing
    delimiter, or a block boundary; [None] means failure. *)
Definition close_line (close_range : nat * nat) (p : parser) : option (nat * nat) * parser :=
  match eat is_eol p with
  | (Some eol_range, p1) => (Some (fst close_range, snd eol_range), p1)
  | (None, p1) => if at_block_boundary p1 then (Some close_range, p1) else (None, p1)
  end.

(** src/op/embed.rs 22-58: [embed]. *)
Definition embed (p : parser) : outcome (bool * parser) :=
  let start := pos p in
  match eat is_left_curly2 p with
  | (None, p1) => Ok (false, p1)
  | (Some start_range, p1) =>
      let! (o1, p2) := eat_until is_pipe p1 in
      match o1 with
      | None => Ok (false, set_pos start p2)
      | Some (lhs_range, sep_range) =>
          let! (o2, p3) := eat_until is_right_curly2 p2 in
          match o2 with
          | None => Ok (false, set_pos start p3)
          | Some (rhs_range, close_range) =>
              match close_line close_range p3 with
              | (None, p4) => Ok (false, set_pos start p4)
              | (Some end_range, p4) =>
                  let! c1 := span start_range p4 in
                  let! c2 := span lhs_range p4 in
                  let! c3 := span sep_range p4 in
                  let! c4 := span rhs_range p4 in
                  let! c5 := span end_range p4 in
                  Ok (true,
                      push_op (new_end NEmbed c5)
                        (push_op (new_value c4)
                           (push_op (new_value c3)
                              (push_op (new_value c2) (push_op (new_start NEmbed c1) p4)))))
              end
          end
      end
  end.

(** src/op/code.rs 10-12. *)
Definition is_backtick3 (t : token) : bool :=
  kind_eqb (kind t) Backtick && col0 t && (tlen t =? 3).

(** src/op/code.rs 22: [eat_seq!(p, is_backtick3, is_eol).or_else(|| p.eat(is_backtick3))]. *)
Definition eat_fence (p : parser) : option (nat * nat) * parser :=
  match eat_seq [is_backtick3; is_eol] p with
  | (Some r, p1) => (Some r, p1)
  | (None, p1) => eat is_backtick3 p1
  end.

(** src/op/code.rs 18-61: [code]. *)
Definition code (p : parser) : outcome (bool * parser) :=
  let start := pos p in
  let snap := length (ops p) in
  match eat_fence p with
  | (None, p1) => Ok (false, p1)
  | (Some first_range, p1) =>
      let with_modifier := negb (is_some_and is_eol (get (snd first_range - 1) p1)) in
      let! c := span first_range p1 in
      let p2 := push_op (new_start NCode c) p1 in
      let! (scan, p3) :=
        with_no_stops
          (fun q =>
             let! (_, q1) := (if with_modifier then modifier q else Ok (false, q)) in
             eat_until is_backtick3 q1) p2 in
      match scan with
      | None => Ok (false, truncate_ops snap (set_pos start p3))
      | Some (body_range, close_range) =>
          match close_line close_range p3 with
          | (None, p4) => Ok (false, truncate_ops snap (set_pos start p4))
          | (Some end_range, p4) =>
              let! cb := span body_range p4 in
              let! ce := span end_range p4 in
              Ok (true, push_op (new_end NCode ce) (push_op (new_value cb) p4))
          end
      end
  end.

(** src/op/collapsible.rs 11-21. *)
Definition is_collapsible_start (t : token) : bool := kind_eqb (kind t) CollapsibleStart && col0 t.
Definition is_collapsible_end (t : token) : bool := kind_eqb (kind t) CollapsibleEnd && col0 t.
Definition is_space_or_eol (t : token) : bool := kind_eqb (kind t) Space || kind_eqb (kind t) Eol.

(** src/op/collapsible.rs 52:
    [eat_seq!(p, is_collapsible_end, is_eol).or_else(|| p.eat(is_collapsible_end))]. *)
Definition eat_collapsible_end (p : parser) : option (nat * nat) * parser :=
  match eat_seq [is_collapsible_end; is_eol] p with
  | (Some r, p1) => (Some r, p1)
  | (None, p1) => eat is_collapsible_end p1
  end.

(** src/op/document.rs 63-67: list, images, thematic break, heading or paragraph. *)
Definition simple_block (p : parser) : outcome (unit * parser) :=
  with_eof StopTerminator
    (fun q =>
       let! (b, q1) :=
         orelse (list_ 0) (orelse images (orelse thematic_break heading)) q in
       if b then Ok (tt, q1) else paragraph q1) p.

(** src/op/document.rs 51-76 ([document], with its loop 55-74) and src/op/collapsible.rs 27-64
    ([collapsible]). [debug_assert!] (document.rs 70-73) is modelled as a panic. *)
Fixpoint document (fuel : nat) (p : parser) : outcome parser :=
  match fuel with
  | 0 => OutOfFuel
  | S f =>
      let p0 := push_op (new_start NDocument no_content) p in
      let! p1 := document_loop f p0 in
      Ok (push_op (new_end NDocument no_content) p1)
  end
with document_loop (fuel : nat) (p : parser) : outcome parser :=
  match fuel with
  | 0 => OutOfFuel
  | S f =>
      if at_eof p then Ok p
      else
        let before := pos p in
        let! p2 :=
          match eat is_terminator p with
          | (Some range, p1) =>
              let! c := span range p1 in Ok (push_op (new_value c) p1)
          | (None, p1) =>
              let! (b, q) := orelse code (orelse (collapsible f) (orelse embed highlight)) p1 in
              if b then Ok q
              else let! (_, q1) := simple_block q in Ok q1
          end in
        if before <? pos p2 then document_loop f p2 else Panic
  end
with collapsible (fuel : nat) (p : parser) : outcome (bool * parser) :=
  match fuel with
  | 0 => OutOfFuel
  | S f =>
      let start := pos p in
      let snap := length (ops p) in
      match eat_seq [is_collapsible_start; is_space_or_eol] p with
      | (None, p1) => Ok (false, p1)
      | (Some start_range, p1) =>
          let! c := span start_range p1 in
          let p2 := push_op (new_start NCollapsible c) p1 in
          let! (_, p3) := modifier p2 in
          if negb (at_ col0 p3) then
            Ok (false, flip_to_literal start (truncate_ops snap (set_pos start p3)))
          else
            let! (_, p4) :=
              with_eof StopCollapsibleEnd (fun q => let! q1 := document f q in Ok (tt, q1)) p3 in
            let p5 := snd (eat is_eol p4) in
            match eat_collapsible_end p5 with
            | (None, p6) =>
                Ok (false, flip_to_literal start (truncate_ops snap (set_pos start p6)))
            | (Some end_range, p6) =>
                let! ce := span end_range p6 in
                Ok (true, push_op (new_end NCollapsible ce) p6)
            end
      end
  end.

(** src/op/mod.rs 237-242: [parse]. *)
Definition parse (input : str) : outcome (list op) :=
  let! p0 := parser_from input in
  let! (_, p1) := metadata p0 in
  let! p2 := document (3 * length (tokens p1) + 5) p1 in
  Ok (ops p2).
