(** The parser of Parser.v with machine integers.

    Every function is the one of Parser.v (same lines of the code), with each addition and subtraction checked against the
    range of its type: positions, levels and counts are [usize] with the greatest value [m], the counter of parentheses
    lies between [lo] and [hi]. A result out of range panics, as in a build with overflow checks. A function that can
    panic in this way returns an [outcome] here even if it returns a plain value there. *)
From Coq Require Import ZArith.
From Verif Require Import Base Lexer Ops Parser Machine.

(** [a - b] for [usize]. *)
Definition usub (a b : nat) : outcome nat := if b <=? a then Ok (a - b) else Panic.
(** [a && b] and [a || b] with a checked right side. *)
Definition and_then (a : bool) (b : outcome bool) : outcome bool := if a then b else Ok false.
Definition or_then (a : bool) (b : outcome bool) : outcome bool := if a then Ok true else b.
(** [Iterator::any] *)
Fixpoint any_u {A} (f : A -> outcome bool) (l : list A) : outcome bool :=
  match l with
  | [] => Ok false
  | a :: r => let! b := f a in or_then b (any_u f r)
  end.

Section Parser.
  Variable m : nat.
  Variables lo hi : Z.

  (** parser.rs 140-150 *)
  Definition parser_from_u (input : str) : outcome parser :=
    let! ts := lex_m m input in Ok (mk_parser input ts 0 [] []).
  (** parser.rs 167-171 *)
  Definition next_u (p : parser) : outcome parser :=
    if pos p <? length (tokens p) then let! i := uadd m (pos p) 1 in Ok (set_pos i p) else Ok p.
  (** parser.rs 175-184 *)
  Definition eat_u (pred : token -> bool) (p : parser) : outcome (option (nat * nat) * parser) :=
    match nth_error (tokens p) (pos p) with
    | None => Ok (None, p)
    | Some t => if pred t then let! i := uadd m (pos p) 1 in Ok (Some (pos p, i), set_pos i p) else Ok (None, p)
    end.
  (** parser.rs 63-99 *)
  Definition at_list_boundary_u (p : parser) (current_level max_level : nat) (k : list_kind) : outcome bool :=
    any_u
      (fun level =>
         let k' := if level =? current_level then Some k else None in
         if level =? 0 then
           and_then (is_some_and col0 (get (pos p) p))
             (and_then (is_some_and (is_list_marker k') (get (pos p) p))
                (let! i := uadd m (pos p) 1 in Ok (is_some_and is_space_1 (get i p))))
         else
           and_then (is_some_and col0 (get (pos p) p))
             (and_then (is_some_and (fun t => kind_eqb (kind t) Space && (tlen t =? level)) (get (pos p) p))
                (let! i := uadd m (pos p) 1 in
                 and_then (is_some_and (is_list_marker k') (get i p))
                   (let! j := uadd m i 1 in Ok (is_some_and is_space_1 (get j p))))))
      (seq 0 (S max_level)).
  (** parser.rs 102-121 *)
  Definition matches_u (p : parser) (t : token) (c : stop_condition) : outcome bool :=
    match c with
    | StopTerminator => Ok (kind_eqb (kind t) Terminator)
    | StopCollapsibleEnd =>
        or_then (kind_eqb (kind t) CollapsibleEnd && col0 t)
          (and_then (kind_eqb (kind t) Eol)
             (let! i := uadd m (pos p) 1 in
              Ok (is_some_and (fun u => kind_eqb (kind u) CollapsibleEnd && col0 u) (get i p))))
    | StopHighlightEnd => Ok (kind_eqb (kind t) Bang && col0 t && (tlen t =? 2))
    | StopListBoundary level k =>
        and_then (col0 t) (let! n := uadd m level 1 in at_list_boundary_u p level n k)
    end.
  (** parser.rs 230-235 *)
  Definition at_eof_u (p : parser) : outcome bool :=
    match peek p with
    | None => Ok true
    | Some t => any_u (matches_u p t) (eof_stack p)
    end.
  (** parser.rs 248-250 *)
  Definition at_block_boundary_u (p : parser) : outcome bool :=
    let! b := at_eof_u p in or_then b (Ok (at_ (fun t => kind_eqb (kind t) Terminator) p)).
  (** parser.rs 256-275 *)
  Fixpoint eat_until_loop_u (fuel : nat) (start : nat) (matcher : token -> bool) (p : parser)
    : outcome (option ((nat * nat) * (nat * nat)) * parser) :=
    match fuel with
    | 0 => OutOfFuel
    | S f =>
        match nth_error (tokens p) (pos p) with
        | None => Ok (None, set_pos start p)
        | Some t =>
            let! e := at_eof_u p in
            if e then Ok (None, set_pos start p)
            else if matcher t then
              let! i := uadd m (pos p) 1 in
              Ok (Some ((start, pos p), (pos p, i)), set_pos i p)
            else let! i := uadd m (pos p) 1 in eat_until_loop_u f start matcher (set_pos i p)
        end
    end.
  Definition eat_until_u (matcher : token -> bool) (p : parser) : outcome (option ((nat * nat) * (nat * nat)) * parser) :=
    eat_until_loop_u (loop_fuel p) (pos p) matcher p.
  (** parser.rs 310-320 *)
  Fixpoint eat_all_u (preds : list (token -> bool)) (p : parser) : outcome (bool * parser) :=
    match preds with
    | [] => Ok (true, p)
    | f :: fs =>
        let! (o, p1) := eat_u f p in
        match o with Some _ => eat_all_u fs p1 | None => Ok (false, p1) end
    end.
  Definition eat_seq_u (preds : list (token -> bool)) (p : parser) : outcome (option (nat * nat) * parser) :=
    let start := pos p in
    let! (b, p1) := eat_all_u preds p in
    if b then Ok (Some (start, pos p1), p1) else Ok (None, set_pos start p1).

  Definition delimited_u (n : node) (is_open is_close : token -> bool) (p : parser) : outcome (bool * parser) :=
    let start := pos p in
    let! (o, p1) := eat_u is_open p in
    match o with
    | None => Ok (false, p1)
    | Some start_range =>
        let! (o, p2) := eat_until_u is_close p1 in
        match o with
        | None => Ok (false, set_pos start p2)
        | Some (body_range, end_range) => push_leaf n start_range body_range end_range p2
        end
    end.
  Definition metadata_u := delimited_u NMetadata is_three_dashes is_three_dashes.
  Definition title_u := delimited_u NTitle is_left_bracket is_right_bracket.
  Definition italic_u := delimited_u NItalic is_underscore is_underscore.
  Definition strikethrough_u := delimited_u NStrikethrough is_tilde is_tilde.
  Definition emphasis_u := delimited_u NEmphasis is_star is_star.
  Definition code_span_u := delimited_u NCodeSpan is_backtick is_backtick.

  (** destination.rs 16-39 *)
  Fixpoint destination_loop_u (fuel : nat) (paren_count : Z) (end_pos : nat) (p : parser) : outcome (nat * parser) :=
    match fuel with
    | 0 => OutOfFuel
    | S f =>
        match peek p with
        | None => Ok (end_pos, p)
        | Some t =>
            let! e := at_eof_u p in
            if e then Ok (end_pos, p)
            else
              match kind t with
              | LeftParenthesis =>
                  let! n := within lo hi (paren_count + 1) in
                  let! i := uadd m (pos p) 1 in destination_loop_u f n end_pos (set_pos i p)
              | RightParenthesis =>
                  let! n := within lo hi (paren_count - 1) in
                  let! i := uadd m (pos p) 1 in
                  if (n =? 0)%Z then Ok (pos p, set_pos i p) else destination_loop_u f n (pos p) (set_pos i p)
              | _ => let! i := uadd m (pos p) 1 in destination_loop_u f paren_count end_pos (set_pos i p)
              end
        end
    end.
  (** destination.rs 10-55 *)
  Definition destination_u (p : parser) : outcome (bool * parser) :=
    let start := pos p in
    let! (o, p1) := eat_u is_left_paren p in
    match o with
    | None => Ok (false, p1)
    | Some start_range =>
        let! (end_pos, p2) := destination_loop_u (loop_fuel p) 1 start p1 in
        if start =? end_pos then Ok (false, set_pos start p2)
        else
          let! cs := span start_range p2 in
          let! b := uadd m start 1 in
          let! cb := span (b, end_pos) p2 in
          let! e := uadd m end_pos 1 in
          let! ce := span (end_pos, e) p2 in
          let! q := uadd m end_pos 1 in
          Ok (true,
              push_op (new_end NDestination ce)
                (push_op (new_value cb) (push_op (new_start NDestination cs) (set_pos q p2))))
    end.
  (** anchor.rs 3-14 *)
  Definition anchor_u (p : parser) : outcome (bool * parser) :=
    let start := pos p in
    let snap := length (ops p) in
    let p0 := push_op (new_start NAnchor no_content) p in
    let! (b1, p1) := title_u p0 in
    if negb b1 then Ok (false, truncate_ops snap (set_pos start p1))
    else
      let! (b2, p2) := destination_u p1 in
      if negb b2 then Ok (false, truncate_ops snap (set_pos start p2))
      else Ok (true, push_op (new_end NAnchor no_content) p2).

  (** bold.rs 22-48 *)
  Fixpoint bold_loop_u (fuel : nat) (text_start : option nat) (p : parser) : outcome (bool * parser) :=
    match fuel with
    | 0 => OutOfFuel
    | S f =>
        match peek p with
        | None => Ok (false, p)
        | Some _ =>
            let pos0 := pos p in
            let! e := at_eof_u p in
            if e then Ok (false, p)
            else
              let! (o, p1) := eat_u is_star2 p in
              match o with
              | Some end_range =>
                  let! p2 := push_text text_start pos0 p1 in
                  let! c := span end_range p2 in
                  Ok (true, push_op (new_end NBold c) p2)
              | None =>
                  let before_snap := length (ops p1) in
                  let! (matched, p2) := orelse strikethrough_u italic_u p1 in
                  if matched then
                    let! p3 := insert_text text_start pos0 before_snap p2 in
                    bold_loop_u f None p3
                  else let! p3 := next_u p2 in bold_loop_u f (or_start text_start pos0) p3
              end
        end
    end.
  (** bold.rs 10-57 *)
  Definition bold_u (p : parser) : outcome (bool * parser) :=
    let start := pos p in
    let snap := length (ops p) in
    let! (o, p1) := eat_u is_star2 p in
    match o with
    | None => Ok (false, p1)
    | Some start_range =>
        let! c := span start_range p1 in
        let! (found_end, p2) := bold_loop_u (loop_fuel p) None (push_op (new_start NBold c) p1) in
        if found_end then Ok (true, p2)
        else Ok (false, truncate_ops snap (set_pos start p2))
    end.
  (** paragraph.rs 6-32 *)
  Definition inline_node_u : parser -> outcome (bool * parser) :=
    orelse strikethrough_u (orelse italic_u (orelse bold_u (orelse anchor_u (orelse code_span_u emphasis_u)))).
  Fixpoint paragraph_loop_u (fuel : nat) (text_start : option nat) (p : parser) : outcome (option nat * parser) :=
    match fuel with
    | 0 => OutOfFuel
    | S f =>
        let! e := at_eof_u p in
        if e then Ok (text_start, p)
        else
          let pos0 := pos p in
          let snap := length (ops p) in
          let! (matched, p1) := inline_node_u p in
          if matched then
            let! p2 := insert_text text_start pos0 snap p1 in
            paragraph_loop_u f None p2
          else let! p2 := next_u p1 in paragraph_loop_u f (or_start text_start (pos p1)) p2
    end.
  Definition paragraph_u (p : parser) : outcome (unit * parser) :=
    let p0 := push_op (new_start NParagraph no_content) p in
    let! (text_start, p1) := paragraph_loop_u (loop_fuel p) None p0 in
    let! p2 := push_text text_start (pos p1) p1 in
    Ok (tt, push_op (new_end NParagraph no_content) p2).

  (** heading.rs 22-38 *)
  Fixpoint heading_loop_u (fuel : nat) (text_start : option nat) (p : parser) : outcome (option nat * parser) :=
    match fuel with
    | 0 => OutOfFuel
    | S f =>
        match peek p with
        | None => Ok (text_start, p)
        | Some _ =>
            let! e := at_eof_u p in
            if e then Ok (text_start, p)
            else
              let before_pos := pos p in
              let before_snap := length (ops p) in
              let! (b, p1) := anchor_u p in
              if b then
                let! p2 := insert_text text_start before_pos before_snap p1 in
                heading_loop_u f None p2
              else let! p2 := next_u p1 in heading_loop_u f (or_start text_start before_pos) p2
        end
    end.
  (** heading.rs 14-46 *)
  Definition heading_u (p : parser) : outcome (bool * parser) :=
    let! (o, p1) := eat_seq_u [is_hash; is_space_1] p in
    match o with
    | None => Ok (false, p1)
    | Some start_range =>
        let! c := span start_range p1 in
        let! (text_start, p2) := heading_loop_u (loop_fuel p) None (push_op (new_start NHeading c) p1) in
        let! p3 := push_text text_start (pos p2) p2 in
        Ok (true, push_op (new_end NHeading no_content) p3)
    end.
  (** image.rs 14-48 *)
  Definition image_u (p : parser) : outcome (bool * parser) :=
    let start := pos p in
    let snap := length (ops p) in
    let! (o, p1) := eat_u is_bang p in
    match o with
    | None => Ok (false, p1)
    | Some start_range =>
        let! c := span start_range p1 in
        let! (b1, p2) := title_u (push_op (new_start NImage c) p1) in
        if negb b1 then Ok (false, truncate_ops snap (set_pos start p2))
        else
          let! (b2, p3) := destination_u p2 in
          if negb b2 then Ok (false, truncate_ops snap (set_pos start p3))
          else
            let! (o, p4) := eat_u is_eol p3 in
            match o with
            | Some eol_range =>
                let! ce := span eol_range p4 in
                Ok (true, push_op (new_end NImage ce) p4)
            | None =>
                let! e := at_eof_u p4 in
                if e then Ok (true, push_op (new_end NImage no_content) p4)
                else Ok (false, truncate_ops snap (set_pos start p4))
            end
    end.
  (** images.rs 7-17 *)
  Fixpoint images_loop_u (fuel : nat) (start snap count : nat) (p : parser) : outcome (option nat * parser) :=
    match fuel with
    | 0 => OutOfFuel
    | S f =>
        match peek p with
        | None => Ok (Some count, p)
        | Some _ =>
            let! (b, p1) := image_u p in
            if b then let! n := uadd m count 1 in images_loop_u f start snap n p1
            else
              let! e := at_eof_u p1 in
              if e then Ok (Some count, p1)
              else Ok (None, truncate_ops snap (set_pos start p1))
        end
    end.
  (** images.rs 3-25 *)
  Definition images_u (p : parser) : outcome (bool * parser) :=
    let start := pos p in
    let snap := length (ops p) in
    let! (o, p1) := images_loop_u (loop_fuel p) start snap 0 p in
    match o with
    | None => Ok (false, p1)
    | Some count =>
        if 1 <? count then
          let! p2 := insert_op snap (new_start NImages no_content) p1 in
          Ok (0 <? count, push_op (new_end NImages no_content) p2)
        else Ok (0 <? count, p1)
    end.
  (** modifier.rs 10-26 *)
  Definition modifier_u (p : parser) : outcome (bool * parser) :=
    if is_some_and col0 (peek p) then Ok (false, p)
    else
      let! (o, p1) := eat_until_u is_eol_or_terminator p in
      match o with
      | None => Ok (false, p1)
      | Some (body_range, end_range) =>
          let! cb := span body_range p1 in
          let! ce := span end_range p1 in
          Ok (true,
              push_op (new_end NModifier ce)
                (push_op (new_value cb) (push_op (new_start NModifier no_content) p1)))
      end.
  (** thematic_break.rs 10-21 *)
  Definition thematic_break_u (p : parser) : outcome (bool * parser) :=
    let! (o, p1) := eat_u is_dash5 p in
    match o with
    | None => Ok (false, p1)
    | Some range =>
        let! c := span range p1 in
        Ok (true,
            push_op (new_end NThematicBreak no_content)
              (push_op (new_value c) (push_op (new_start NThematicBreak no_content) p1)))
    end.

  (** list.rs 14-69 *)
  Fixpoint list_item_u (fuel : nat) (level : nat) (k : option list_kind) (p : parser)
    : outcome (option list_kind * parser) :=
    match fuel with
    | 0 => OutOfFuel
    | S f =>
        if negb (at_ col0 p) then Ok (None, p)
        else
          let! marker_idx := uadd m (pos p) (if level =? 0 then 0 else 1) in
          match get marker_idx p with
          | None => Ok (None, p)
          | Some t =>
              match list_kind_of t with
              | None => Ok (None, p)
              | Some marker_kind =>
                  let preds := if level =? 0 then [is_list_marker k; is_space_1]
                               else [is_indent level; is_list_marker k; is_space_1] in
                  let! (o, p1) := eat_seq_u preds p in
                  match o with
                  | None => Ok (None, p1)
                  | Some start_range =>
                      let! c := span start_range p1 in
                      let p2 := push_op (new_start NListItem c) p1 in
                      let! (_, p3) := with_eof (StopListBoundary level marker_kind) paragraph_u p2 in
                      let! e := at_eof_u p3 in
                      let! p4 :=
                        (if negb e then
                           let! n := uadd m level 1 in
                           let! (_, q) := list_inner_u f n p3 in Ok q
                         else Ok p3) in
                      Ok (Some marker_kind, push_op (new_end NListItem no_content) p4)
                  end
              end
          end
    end
  with list_inner_u (fuel : nat) (level : nat) (p : parser) : outcome (option list_kind * parser) :=
    match fuel with
    | 0 => OutOfFuel
    | S f =>
        let snap := length (ops p) in
        let! (o, p1) := list_item_u f level None p in
        match o with
        | None => Ok (None, p1)
        | Some lk =>
            let! p2 := insert_op snap (new_start (list_kind_node lk) no_content) p1 in
            let! p3 := list_items_u f level lk p2 in
            Ok (Some lk, push_op (new_end (list_kind_node lk) no_content) p3)
        end
    end
  with list_items_u (fuel : nat) (level : nat) (lk : list_kind) (p : parser) : outcome parser :=
    match fuel with
    | 0 => OutOfFuel
    | S f =>
        let! (o, p1) := list_item_u f level (Some lk) p in
        match o with
        | None => Ok p1
        | Some _ => list_items_u f level lk p1
        end
    end.
  (** list.rs 71-73 *)
  Definition list_u (level : nat) (p : parser) : outcome (bool * parser) :=
    let! (o, p1) := list_inner_u (2 * length (tokens p) + 3) level p in
    Ok (match o with Some _ => true | None => false end, p1).

  (** highlight.rs 31-51 *)
  Definition icon_u (p : parser) : outcome (bool * parser) :=
    let start := pos p in
    let snap := length (ops p) in
    let! (o, p1) := eat_seq_u [is_one_bang; is_space_1] p in
    match o with
    | None => Ok (false, p1)
    | Some start_range =>
        let! (o, p2) := eat_until_u is_eol p1 in
        match o with
        | None => Ok (false, truncate_ops snap (set_pos start p2))
        | Some (body_range, end_range) => push_leaf NIcon start_range body_range end_range p2
        end
    end.
  (** highlight.rs 80-107 *)
  Fixpoint highlight_loop_u (fuel : nat) (p : parser) : outcome (bool * parser) :=
    match fuel with
    | 0 => OutOfFuel
    | S f =>
        let! e := at_eof_u p in
        if e then Ok (false, p)
        else
          let before := pos p in
          let! (o, p1) := eat_u is_two_bangs p in
          match o with
          | Some close_range =>
              let! (o, p2) := eat_u is_eol p1 in
              let end_range :=
                match o with Some eol_range => (fst close_range, snd eol_range) | None => close_range end in
              let! c := span end_range p2 in
              Ok (true, push_op (new_end NHighlight c) p2)
          | None =>
              let! (o, p2) := eat_u is_terminator p1 in
              let! p2 :=
                match o with
                | Some term_range => let! c := span term_range p2 in Ok (push_op (new_value c) p2)
                | None => Ok p2
                end in
              let! (_, p3) := with_eofs [StopHighlightEnd; StopTerminator] paragraph_u p2 in
              if before <? pos p3 then highlight_loop_u f p3 else Panic
          end
    end.
  (** highlight.rs 53-112 *)
  Definition highlight_u (p : parser) : outcome (bool * parser) :=
    let start := pos p in
    let snap := length (ops p) in
    let! (o, p1) := eat_seq_u [is_two_bangs; fun t => is_space_1 t || is_eol t] p in
    match o with
    | None => Ok (false, p1)
    | Some start_range =>
        let! i := usub (snd start_range) 1 in
        let skip_title := is_some_and is_eol (get i p1) in
        let! c := span start_range p1 in
        let p2 := push_op (new_start NHighlight c) p1 in
        let! (_, p3) := (if negb skip_title then modifier_u p2 else Ok (false, p2)) in
        let! (_, p4) := with_eof StopTerminator icon_u p3 in
        if negb (at_ col0 p4) then Ok (false, truncate_ops snap (set_pos start p4))
        else
          let! (b, p5) := highlight_loop_u (loop_fuel p) p4 in
          if b then Ok (true, p5)
          else Ok (false, truncate_ops snap (set_pos start p5))
    end.

  (** embed.rs 38-45 and code.rs 45-53 *)
  Definition close_line_u (close_range : nat * nat) (p : parser) : outcome (option (nat * nat) * parser) :=
    let! (o, p1) := eat_u is_eol p in
    match o with
    | Some eol_range => Ok (Some (fst close_range, snd eol_range), p1)
    | None => let! b := at_block_boundary_u p1 in Ok (if b then Some close_range else None, p1)
    end.
  (** embed.rs 22-58 *)
  Definition embed_u (p : parser) : outcome (bool * parser) :=
    let start := pos p in
    let! (o, p1) := eat_u is_left_curly2 p in
    match o with
    | None => Ok (false, p1)
    | Some start_range =>
        let! (o1, p2) := eat_until_u is_pipe p1 in
        match o1 with
        | None => Ok (false, set_pos start p2)
        | Some (lhs_range, sep_range) =>
            let! (o2, p3) := eat_until_u is_right_curly2 p2 in
            match o2 with
            | None => Ok (false, set_pos start p3)
            | Some (rhs_range, close_range) =>
                let! (o, p4) := close_line_u close_range p3 in
                match o with
                | None => Ok (false, set_pos start p4)
                | Some end_range =>
                    let! c1 := span start_range p4 in
                    let! c2 := span lhs_range p4 in
                    let! c3 := span sep_range p4 in
                    let! c4 := span rhs_range p4 in
                    let! c5 := span end_range p4 in
                    Ok (true,
                        push_op (new_end NEmbed c5)
                          (push_op (new_value c4)
                             (push_op (new_value c3)
                                (push_op (new_value c2) (push_op (new_start NEmbed c1) p4)))))
                end
            end
        end
    end.

  (** code.rs 22 *)
  Definition eat_fence_u (p : parser) : outcome (option (nat * nat) * parser) :=
    let! (o, p1) := eat_seq_u [is_backtick3; is_eol] p in
    match o with Some r => Ok (Some r, p1) | None => eat_u is_backtick3 p1 end.
  (** code.rs 18-61 *)
  Definition code_u (p : parser) : outcome (bool * parser) :=
    let start := pos p in
    let snap := length (ops p) in
    let! (o, p1) := eat_fence_u p in
    match o with
    | None => Ok (false, p1)
    | Some first_range =>
        let! i := usub (snd first_range) 1 in
        let with_modifier := negb (is_some_and is_eol (get i p1)) in
        let! c := span first_range p1 in
        let p2 := push_op (new_start NCode c) p1 in
        let! (scan, p3) :=
          with_no_stops
            (fun q =>
               let! (_, q1) := (if with_modifier then modifier_u q else Ok (false, q)) in
               eat_until_u is_backtick3 q1) p2 in
        match scan with
        | None => Ok (false, truncate_ops snap (set_pos start p3))
        | Some (body_range, close_range) =>
            let! (o, p4) := close_line_u close_range p3 in
            match o with
            | None => Ok (false, truncate_ops snap (set_pos start p4))
            | Some end_range =>
                let! cb := span body_range p4 in
                let! ce := span end_range p4 in
                Ok (true, push_op (new_end NCode ce) (push_op (new_value cb) p4))
            end
        end
    end.

  (** collapsible.rs 52 *)
  Definition eat_collapsible_end_u (p : parser) : outcome (option (nat * nat) * parser) :=
    let! (o, p1) := eat_seq_u [is_collapsible_end; is_eol] p in
    match o with Some r => Ok (Some r, p1) | None => eat_u is_collapsible_end p1 end.
  (** document.rs 63-67 *)
  Definition simple_block_u (p : parser) : outcome (unit * parser) :=
    with_eof StopTerminator
      (fun q =>
         let! (b, q1) := orelse (list_u 0) (orelse images_u (orelse thematic_break_u heading_u)) q in
         if b then Ok (tt, q1) else paragraph_u q1) p.
  (** document.rs 51-76 and collapsible.rs 27-64 *)
  Fixpoint document_u (fuel : nat) (p : parser) : outcome parser :=
    match fuel with
    | 0 => OutOfFuel
    | S f =>
        let p0 := push_op (new_start NDocument no_content) p in
        let! p1 := document_loop_u f p0 in
        Ok (push_op (new_end NDocument no_content) p1)
    end
  with document_loop_u (fuel : nat) (p : parser) : outcome parser :=
    match fuel with
    | 0 => OutOfFuel
    | S f =>
        let! e := at_eof_u p in
        if e then Ok p
        else
          let before := pos p in
          let! (o, p1) := eat_u is_terminator p in
          let! p2 :=
            match o with
            | Some range => let! c := span range p1 in Ok (push_op (new_value c) p1)
            | None =>
                let! (b, q) := orelse code_u (orelse (collapsible_u f) (orelse embed_u highlight_u)) p1 in
                if b then Ok q
                else let! (_, q1) := simple_block_u q in Ok q1
            end in
          if before <? pos p2 then document_loop_u f p2 else Panic
    end
  with collapsible_u (fuel : nat) (p : parser) : outcome (bool * parser) :=
    match fuel with
    | 0 => OutOfFuel
    | S f =>
        let start := pos p in
        let snap := length (ops p) in
        let! (o, p1) := eat_seq_u [is_collapsible_start; is_space_or_eol] p in
        match o with
        | None => Ok (false, p1)
        | Some start_range =>
            let! c := span start_range p1 in
            let p2 := push_op (new_start NCollapsible c) p1 in
            let! (_, p3) := modifier_u p2 in
            if negb (at_ col0 p3) then
              Ok (false, flip_to_literal start (truncate_ops snap (set_pos start p3)))
            else
              let! (_, p4) :=
                with_eof StopCollapsibleEnd (fun q => let! q1 := document_u f q in Ok (tt, q1)) p3 in
              let! (_, p5) := eat_u is_eol p4 in
              let! (o, p6) := eat_collapsible_end_u p5 in
              match o with
              | None => Ok (false, flip_to_literal start (truncate_ops snap (set_pos start p6)))
              | Some end_range =>
                  let! ce := span end_range p6 in
                  Ok (true, push_op (new_end NCollapsible ce) p6)
              end
        end
    end.

  (** mod.rs 237-242 *)
  Definition parse_u (input : str) : outcome (list op) :=
    let! p0 := parser_from_u input in
    let! (_, p1) := metadata_u p0 in
    let! p2 := document_u (3 * length (tokens p1) + 5) p1 in
    Ok (ops p2).
End Parser.
