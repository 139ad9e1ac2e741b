(** The parser of Parser.v with a counter of token reads.

    Every function is the one of Parser.v (same lines of the code) and also returns how many tokens it has looked at:
    [peek], [get] and [eat] look at one token, [at_eof] at one and those of its conditions, [span] twice at every token
    of its range and at the two ends. Tests joined by [&&] or [||] and loops that may stop early are charged in full, so
    that the counter is never too low. *)
From Verif Require Import Base Lexer Ops Parser.

Definition run (A : Type) : Type := outcome (A * nat).
Definition drop {A} (m : run A) : outcome A := let! (a, _) := m in Ok a.
Definition tick {A} (k : nat) (m : run A) : run A := let! (a, n) := m in Ok (a, k + n).
Definition ret {A} (a : A) : run A := Ok (a, 0).
Definition cbind {A B} (m : run A) (f : A -> run B) : run B := let! (a, k) := m in tick k (f a).
Notation "'let+' x ':=' m 'in' k" := (cbind m (fun x => k))
  (at level 200, x pattern, m at level 100, k at level 200).
(** An operation with a fixed number of reads. *)
Definition lift {A} (k : nat) (m : outcome A) : run A := let! a := m in Ok (a, k).

(** Reads of [StopCondition::matches] (parser.rs 63-121) and [at_eof] (230-235). *)
Definition match_reads (c : stop_condition) : nat :=
  match c with
  | StopTerminator | StopHighlightEnd => 1
  | StopCollapsibleEnd => 2
  | StopListBoundary level _ => 1 + 4 * (level + 2)
  end.
Definition stack_reads (st : list stop_condition) : nat := fold_right (fun c n => match_reads c + n) 0 st.
Definition eof_reads (p : parser) : nat := 1 + stack_reads (eof_stack p).

(** parser.rs 195-226 *)
Definition with_eof_k {A} (c : stop_condition) (f : parser -> run (A * parser)) (p : parser) : run (A * parser) :=
  let+ (r, p1) := f (set_stack (c :: eof_stack p) p) in
  ret (r, set_stack (tl (eof_stack p1)) p1).
Definition with_eofs_k {A} (cs : list stop_condition) (f : parser -> run (A * parser)) (p : parser) : run (A * parser) :=
  let+ (r, p1) := f (set_stack (rev_append cs (eof_stack p)) p) in
  ret (r, set_stack (skipn (length cs) (eof_stack p1)) p1).
Definition with_no_stops_k {A} (f : parser -> run (A * parser)) (p : parser) : run (A * parser) :=
  let saved := eof_stack p in
  let+ (r, p1) := f (set_stack [] p) in
  ret (r, set_stack saved p1).

(** parser.rs 256-293 *)
Fixpoint eat_until_loop_k (fuel : nat) (start : nat) (matcher : token -> bool) (p : parser)
  : run (option ((nat * nat) * (nat * nat)) * parser) :=
  match fuel with
  | 0 => OutOfFuel
  | S f =>
      tick 1
      match nth_error (tokens p) (pos p) with
      | None => ret (None, set_pos start p)
      | Some t =>
          tick (eof_reads p) (
          if at_eof p then ret (None, set_pos start p)
          else if matcher t then
            ret (Some ((start, pos p), (pos p, pos p + 1)), set_pos (pos p + 1) p)
          else eat_until_loop_k f start matcher (set_pos (pos p + 1) p))
      end
  end.
Definition eat_until_k (matcher : token -> bool) (p : parser) : run (option ((nat * nat) * (nat * nat)) * parser) :=
  eat_until_loop_k (loop_fuel p) (pos p) matcher p.
Definition span_k (r : nat * nat) (p : parser) : run content := lift (2 * (snd r - fst r) + 2) (span r p).

Definition orelse_k (f g : parser -> run (bool * parser)) (p : parser) : run (bool * parser) :=
  let+ (b, p1) := f p in if b then ret (true, p1) else g p1.

(** ** Inline nodes *)

Definition push_leaf_k (n : node) (s b e : nat * nat) (p : parser) : run (bool * parser) :=
  let+ cs := span_k s p in
  let+ cb := span_k b p in
  let+ ce := span_k e p in
  ret (true, push_op (new_end n ce) (push_op (new_value cb) (push_op (new_start n cs) p))).
Definition delimited_k (n : node) (is_open is_close : token -> bool) (p : parser) : run (bool * parser) :=
  let start := pos p in
  tick 1
  match eat is_open p with
  | (None, p1) => ret (false, p1)
  | (Some start_range, p1) =>
      let+ (o, p2) := eat_until_k is_close p1 in
      match o with
      | None => ret (false, set_pos start p2)
      | Some (body_range, end_range) => push_leaf_k n start_range body_range end_range p2
      end
  end.
Definition metadata_k := delimited_k NMetadata is_three_dashes is_three_dashes.
Definition title_k := delimited_k NTitle is_left_bracket is_right_bracket.
Definition italic_k := delimited_k NItalic is_underscore is_underscore.
Definition strikethrough_k := delimited_k NStrikethrough is_tilde is_tilde.
Definition emphasis_k := delimited_k NEmphasis is_star is_star.
Definition code_span_k := delimited_k NCodeSpan is_backtick is_backtick.

(** destination.rs 10-55 *)
Fixpoint destination_loop_k (fuel : nat) (paren_count end_pos : nat) (p : parser) : run (nat * parser) :=
  match fuel with
  | 0 => OutOfFuel
  | S f =>
      tick 1
      match peek p with
      | None => ret (end_pos, p)
      | Some t =>
          tick (eof_reads p) (
          if at_eof p then ret (end_pos, p)
          else
            let p1 := set_pos (pos p + 1) p in
            match kind t with
            | LeftParenthesis => destination_loop_k f (paren_count + 1) end_pos p1
            | RightParenthesis =>
                if paren_count - 1 =? 0 then ret (pos p, p1)
                else destination_loop_k f (paren_count - 1) (pos p) p1
            | _ => destination_loop_k f paren_count end_pos p1
            end)
      end
  end.
Definition destination_k (p : parser) : run (bool * parser) :=
  let start := pos p in
  tick 1
  match eat is_left_paren p with
  | (None, p1) => ret (false, p1)
  | (Some start_range, p1) =>
      let+ (end_pos, p2) := destination_loop_k (loop_fuel p) 1 start p1 in
      if start =? end_pos then ret (false, set_pos start p2)
      else
        let+ cs := span_k start_range p2 in
        let+ cb := span_k (start + 1, end_pos) p2 in
        let+ ce := span_k (end_pos, end_pos + 1) p2 in
        ret (true,
             push_op (new_end NDestination ce)
               (push_op (new_value cb)
                  (push_op (new_start NDestination cs) (set_pos (end_pos + 1) p2))))
  end.

(** anchor.rs 3-14 *)
Definition anchor_k (p : parser) : run (bool * parser) :=
  let start := pos p in
  let snap := length (ops p) in
  let p0 := push_op (new_start NAnchor no_content) p in
  let+ (b1, p1) := title_k p0 in
  if negb b1 then ret (false, truncate_ops snap (set_pos start p1))
  else
    let+ (b2, p2) := destination_k p1 in
    if negb b2 then ret (false, truncate_ops snap (set_pos start p2))
    else ret (true, push_op (new_end NAnchor no_content) p2).

Definition push_text_k (text_start : option nat) (e : nat) (p : parser) : run parser :=
  match text_start with
  | None => ret p
  | Some s => let+ c := span_k (s, e) p in ret (push_op (new_value c) p)
  end.
Definition insert_text_k (text_start : option nat) (e i : nat) (p : parser) : run parser :=
  match text_start with
  | None => ret p
  | Some s => let+ c := span_k (s, e) p in lift 0 (insert_op i (new_value c) p)
  end.

(** bold.rs 10-57 *)
Fixpoint bold_loop_k (fuel : nat) (text_start : option nat) (p : parser) : run (bool * parser) :=
  match fuel with
  | 0 => OutOfFuel
  | S f =>
      tick 1
      match peek p with
      | None => ret (false, p)
      | Some _ =>
          let pos0 := pos p in
          tick (eof_reads p) (
          if at_eof p then ret (false, p)
          else
            tick 1
            match eat is_star2 p with
            | (Some end_range, p1) =>
                let+ p2 := push_text_k text_start pos0 p1 in
                let+ c := span_k end_range p2 in
                ret (true, push_op (new_end NBold c) p2)
            | (None, p1) =>
                let before_snap := length (ops p1) in
                let+ (matched, p2) := orelse_k strikethrough_k italic_k p1 in
                if matched then
                  let+ p3 := insert_text_k text_start pos0 before_snap p2 in
                  bold_loop_k f None p3
                else bold_loop_k f (or_start text_start pos0) (next p2)
            end)
      end
  end.
Definition bold_k (p : parser) : run (bool * parser) :=
  let start := pos p in
  let snap := length (ops p) in
  tick 1
  match eat is_star2 p with
  | (None, p1) => ret (false, p1)
  | (Some start_range, p1) =>
      let+ c := span_k start_range p1 in
      let+ (found_end, p2) := bold_loop_k (loop_fuel p) None (push_op (new_start NBold c) p1) in
      if found_end then ret (true, p2)
      else ret (false, truncate_ops snap (set_pos start p2))
  end.

(** paragraph.rs 6-32 *)
Definition inline_node_k : parser -> run (bool * parser) :=
  orelse_k strikethrough_k (orelse_k italic_k (orelse_k bold_k (orelse_k anchor_k (orelse_k code_span_k emphasis_k)))).
Fixpoint paragraph_loop_k (fuel : nat) (text_start : option nat) (p : parser) : run (option nat * parser) :=
  match fuel with
  | 0 => OutOfFuel
  | S f =>
      tick (eof_reads p) (
      if at_eof p then ret (text_start, p)
      else
        let pos0 := pos p in
        let snap := length (ops p) in
        let+ (matched, p1) := inline_node_k p in
        if matched then
          let+ p2 := insert_text_k text_start pos0 snap p1 in
          paragraph_loop_k f None p2
        else paragraph_loop_k f (or_start text_start (pos p1)) (next p1))
  end.
Definition paragraph_k (p : parser) : run (unit * parser) :=
  let p0 := push_op (new_start NParagraph no_content) p in
  let+ (text_start, p1) := paragraph_loop_k (loop_fuel p) None p0 in
  let+ p2 := push_text_k text_start (pos p1) p1 in
  ret (tt, push_op (new_end NParagraph no_content) p2).

(** ** Block nodes *)

(** heading.rs 14-46 *)
Fixpoint heading_loop_k (fuel : nat) (text_start : option nat) (p : parser) : run (option nat * parser) :=
  match fuel with
  | 0 => OutOfFuel
  | S f =>
      tick 1
      match peek p with
      | None => ret (text_start, p)
      | Some _ =>
          tick (eof_reads p) (
          if at_eof p then ret (text_start, p)
          else
            let before_pos := pos p in
            let before_snap := length (ops p) in
            let+ (b, p1) := anchor_k p in
            if b then
              let+ p2 := insert_text_k text_start before_pos before_snap p1 in
              heading_loop_k f None p2
            else heading_loop_k f (or_start text_start before_pos) (next p1))
      end
  end.
Definition heading_k (p : parser) : run (bool * parser) :=
  tick 2
  match eat_seq [is_hash; is_space_1] p with
  | (None, p1) => ret (false, p1)
  | (Some start_range, p1) =>
      let+ c := span_k start_range p1 in
      let+ (text_start, p2) := heading_loop_k (loop_fuel p) None (push_op (new_start NHeading c) p1) in
      let+ p3 := push_text_k text_start (pos p2) p2 in
      ret (true, push_op (new_end NHeading no_content) p3)
  end.

(** image.rs 14-48, images.rs 3-25 *)
Definition image_k (p : parser) : run (bool * parser) :=
  let start := pos p in
  let snap := length (ops p) in
  tick 1
  match eat is_bang p with
  | (None, p1) => ret (false, p1)
  | (Some start_range, p1) =>
      let+ c := span_k start_range p1 in
      let+ (b1, p2) := title_k (push_op (new_start NImage c) p1) in
      if negb b1 then ret (false, truncate_ops snap (set_pos start p2))
      else
        let+ (b2, p3) := destination_k p2 in
        if negb b2 then ret (false, truncate_ops snap (set_pos start p3))
        else
          tick 1
          match eat is_eol p3 with
          | (Some eol_range, p4) =>
              let+ ce := span_k eol_range p4 in
              ret (true, push_op (new_end NImage ce) p4)
          | (None, p4) =>
              tick (eof_reads p4) (
              if at_eof p4 then ret (true, push_op (new_end NImage no_content) p4)
              else ret (false, truncate_ops snap (set_pos start p4)))
          end
  end.
Fixpoint images_loop_k (fuel : nat) (start snap count : nat) (p : parser) : run (option nat * parser) :=
  match fuel with
  | 0 => OutOfFuel
  | S f =>
      tick 1
      match peek p with
      | None => ret (Some count, p)
      | Some _ =>
          let+ (b, p1) := image_k p in
          if b then images_loop_k f start snap (count + 1) p1
          else tick (eof_reads p1) (
               if at_eof p1 then ret (Some count, p1)
               else ret (None, truncate_ops snap (set_pos start p1)))
      end
  end.
Definition images_k (p : parser) : run (bool * parser) :=
  let start := pos p in
  let snap := length (ops p) in
  let+ (o, p1) := images_loop_k (loop_fuel p) start snap 0 p in
  match o with
  | None => ret (false, p1)
  | Some count =>
      if 1 <? count then
        let+ p2 := lift 0 (insert_op snap (new_start NImages no_content) p1) in
        ret (0 <? count, push_op (new_end NImages no_content) p2)
      else ret (0 <? count, p1)
  end.

(** modifier.rs 10-26 *)
Definition modifier_k (p : parser) : run (bool * parser) :=
  tick 1
  (if is_some_and col0 (peek p) then ret (false, p)
   else
     let+ (o, p1) := eat_until_k is_eol_or_terminator p in
     match o with
     | None => ret (false, p1)
     | Some (body_range, end_range) =>
         let+ cb := span_k body_range p1 in
         let+ ce := span_k end_range p1 in
         ret (true,
              push_op (new_end NModifier ce)
                (push_op (new_value cb) (push_op (new_start NModifier no_content) p1)))
     end).

(** thematic_break.rs 10-21 *)
Definition thematic_break_k (p : parser) : run (bool * parser) :=
  tick 1
  match eat is_dash5 p with
  | (None, p1) => ret (false, p1)
  | (Some range, p1) =>
      let+ c := span_k range p1 in
      ret (true,
           push_op (new_end NThematicBreak no_content)
             (push_op (new_value c) (push_op (new_start NThematicBreak no_content) p1)))
  end.

(** list.rs 14-73 *)
Fixpoint list_item_k (fuel : nat) (level : nat) (k : option list_kind) (p : parser) : run (option list_kind * parser) :=
  match fuel with
  | 0 => OutOfFuel
  | S f =>
      tick 2
      (if negb (at_ col0 p) then ret (None, p)
       else
        let marker_idx := pos p + (if level =? 0 then 0 else 1) in
        match get marker_idx p with
        | None => ret (None, p)
        | Some m =>
            match list_kind_of m with
            | None => ret (None, p)
            | Some marker_kind =>
                let preds := if level =? 0 then [is_list_marker k; is_space_1]
                             else [is_indent level; is_list_marker k; is_space_1] in
                tick 3
                match eat_seq preds p with
                | (None, p1) => ret (None, p1)
                | (Some start_range, p1) =>
                    let+ c := span_k start_range p1 in
                    let p2 := push_op (new_start NListItem c) p1 in
                    let+ (_, p3) := with_eof_k (StopListBoundary level marker_kind) paragraph_k p2 in
                    let+ p4 :=
                      tick (eof_reads p3)
                      (if negb (at_eof p3) then
                         let+ (_, q) := list_inner_k f (level + 1) p3 in ret q
                       else ret p3) in
                    ret (Some marker_kind, push_op (new_end NListItem no_content) p4)
                end
            end
        end)
  end
with list_inner_k (fuel : nat) (level : nat) (p : parser) : run (option list_kind * parser) :=
  match fuel with
  | 0 => OutOfFuel
  | S f =>
      let snap := length (ops p) in
      let+ (o, p1) := list_item_k f level None p in
      match o with
      | None => ret (None, p1)
      | Some lk =>
          let+ p2 := lift 0 (insert_op snap (new_start (list_kind_node lk) no_content) p1) in
          let+ p3 := list_items_k f level lk p2 in
          ret (Some lk, push_op (new_end (list_kind_node lk) no_content) p3)
      end
  end
with list_items_k (fuel : nat) (level : nat) (lk : list_kind) (p : parser) : run parser :=
  match fuel with
  | 0 => OutOfFuel
  | S f =>
      let+ (o, p1) := list_item_k f level (Some lk) p in
      match o with
      | None => ret p1
      | Some _ => list_items_k f level lk p1
      end
  end.
Definition list_k (level : nat) (p : parser) : run (bool * parser) :=
  let+ (o, p1) := list_inner_k (2 * length (tokens p) + 3) level p in
  ret (match o with Some _ => true | None => false end, p1).

(** highlight.rs 31-112 *)
Definition icon_k (p : parser) : run (bool * parser) :=
  let start := pos p in
  let snap := length (ops p) in
  tick 2
  match eat_seq [is_one_bang; is_space_1] p with
  | (None, p1) => ret (false, p1)
  | (Some start_range, p1) =>
      let+ (o, p2) := eat_until_k is_eol p1 in
      match o with
      | None => ret (false, truncate_ops snap (set_pos start p2))
      | Some (body_range, end_range) => push_leaf_k NIcon start_range body_range end_range p2
      end
  end.
Fixpoint highlight_loop_k (fuel : nat) (p : parser) : run (bool * parser) :=
  match fuel with
  | 0 => OutOfFuel
  | S f =>
      tick (eof_reads p) (
      if at_eof p then ret (false, p)
      else
        let before := pos p in
        tick 1
        match eat is_two_bangs p with
        | (Some close_range, p1) =>
            tick 1
            (let '(end_range, p2) :=
              match eat is_eol p1 with
              | (Some eol_range, p2) => ((fst close_range, snd eol_range), p2)
              | (None, p2) => (close_range, p2)
              end in
             let+ c := span_k end_range p2 in
             ret (true, push_op (new_end NHighlight c) p2))
        | (None, p1) =>
            let+ p2 :=
              tick 1
              match eat is_terminator p1 with
              | (Some term_range, p2) =>
                  let+ c := span_k term_range p2 in ret (push_op (new_value c) p2)
              | (None, p2) => ret p2
              end in
            let+ (_, p3) := with_eofs_k [StopHighlightEnd; StopTerminator] paragraph_k p2 in
            if before <? pos p3 then highlight_loop_k f p3 else Panic
        end)
  end.
Definition highlight_k (p : parser) : run (bool * parser) :=
  let start := pos p in
  let snap := length (ops p) in
  tick 2
  match eat_seq [is_two_bangs; fun t => is_space_1 t || is_eol t] p with
  | (None, p1) => ret (false, p1)
  | (Some start_range, p1) =>
      let skip_title := is_some_and is_eol (get (snd start_range - 1) p1) in
      tick 1
      (let+ c := span_k start_range p1 in
       let p2 := push_op (new_start NHighlight c) p1 in
       let+ (_, p3) := (if negb skip_title then modifier_k p2 else ret (false, p2)) in
       let+ (_, p4) := with_eof_k StopTerminator icon_k p3 in
       tick 1
       (if negb (at_ col0 p4) then ret (false, truncate_ops snap (set_pos start p4))
        else
          let+ (b, p5) := highlight_loop_k (loop_fuel p) p4 in
          if b then ret (true, p5)
          else ret (false, truncate_ops snap (set_pos start p5))))
  end.

(** embed.rs 22-58, code.rs 18-61 *)
Definition close_reads (p : parser) : nat := 2 + eof_reads p.
Definition embed_k (p : parser) : run (bool * parser) :=
  let start := pos p in
  tick 1
  match eat is_left_curly2 p with
  | (None, p1) => ret (false, p1)
  | (Some start_range, p1) =>
      let+ (o1, p2) := eat_until_k is_pipe p1 in
      match o1 with
      | None => ret (false, set_pos start p2)
      | Some (lhs_range, sep_range) =>
          let+ (o2, p3) := eat_until_k is_right_curly2 p2 in
          match o2 with
          | None => ret (false, set_pos start p3)
          | Some (rhs_range, close_range) =>
              tick (close_reads p3)
              match close_line close_range p3 with
              | (None, p4) => ret (false, set_pos start p4)
              | (Some end_range, p4) =>
                  let+ c1 := span_k start_range p4 in
                  let+ c2 := span_k lhs_range p4 in
                  let+ c3 := span_k sep_range p4 in
                  let+ c4 := span_k rhs_range p4 in
                  let+ c5 := span_k end_range p4 in
                  ret (true,
                       push_op (new_end NEmbed c5)
                         (push_op (new_value c4)
                            (push_op (new_value c3)
                               (push_op (new_value c2) (push_op (new_start NEmbed c1) p4)))))
              end
          end
      end
  end.
Definition code_k (p : parser) : run (bool * parser) :=
  let start := pos p in
  let snap := length (ops p) in
  tick 3
  match eat_fence p with
  | (None, p1) => ret (false, p1)
  | (Some first_range, p1) =>
      let with_modifier := negb (is_some_and is_eol (get (snd first_range - 1) p1)) in
      tick 1
      (let+ c := span_k first_range p1 in
       let p2 := push_op (new_start NCode c) p1 in
       let+ (scan, p3) :=
         with_no_stops_k
           (fun q =>
              let+ (_, q1) := (if with_modifier then modifier_k q else ret (false, q)) in
              eat_until_k is_backtick3 q1) p2 in
       match scan with
       | None => ret (false, truncate_ops snap (set_pos start p3))
       | Some (body_range, close_range) =>
           tick (close_reads p3)
           match close_line close_range p3 with
           | (None, p4) => ret (false, truncate_ops snap (set_pos start p4))
           | (Some end_range, p4) =>
               let+ cb := span_k body_range p4 in
               let+ ce := span_k end_range p4 in
               ret (true, push_op (new_end NCode ce) (push_op (new_value cb) p4))
           end
       end)
  end.

(** document.rs 51-76, collapsible.rs 27-64 *)
Definition simple_block_k (p : parser) : run (unit * parser) :=
  with_eof_k StopTerminator
    (fun q =>
       let+ (b, q1) :=
         orelse_k (list_k 0) (orelse_k images_k (orelse_k thematic_break_k heading_k)) q in
       if b then ret (tt, q1) else paragraph_k q1) p.
Fixpoint document_k (fuel : nat) (p : parser) : run parser :=
  match fuel with
  | 0 => OutOfFuel
  | S f =>
      let p0 := push_op (new_start NDocument no_content) p in
      let+ p1 := document_loop_k f p0 in
      ret (push_op (new_end NDocument no_content) p1)
  end
with document_loop_k (fuel : nat) (p : parser) : run parser :=
  match fuel with
  | 0 => OutOfFuel
  | S f =>
      tick (eof_reads p) (
      if at_eof p then ret p
      else
        let before := pos p in
        let+ p2 :=
          tick 1
          match eat is_terminator p with
          | (Some range, p1) =>
              let+ c := span_k range p1 in ret (push_op (new_value c) p1)
          | (None, p1) =>
              let+ (b, q) := orelse_k code_k (orelse_k (collapsible_k f) (orelse_k embed_k highlight_k)) p1 in
              if b then ret q
              else let+ (_, q1) := simple_block_k q in ret q1
          end in
        if before <? pos p2 then document_loop_k f p2 else Panic)
  end
with collapsible_k (fuel : nat) (p : parser) : run (bool * parser) :=
  match fuel with
  | 0 => OutOfFuel
  | S f =>
      let start := pos p in
      let snap := length (ops p) in
      tick 2
      match eat_seq [is_collapsible_start; is_space_or_eol] p with
      | (None, p1) => ret (false, p1)
      | (Some start_range, p1) =>
          let+ c := span_k start_range p1 in
          let p2 := push_op (new_start NCollapsible c) p1 in
          let+ (_, p3) := modifier_k p2 in
          tick 1
          (if negb (at_ col0 p3) then
             tick 1 (ret (false, flip_to_literal start (truncate_ops snap (set_pos start p3))))
           else
            let+ (_, p4) :=
              with_eof_k StopCollapsibleEnd (fun q => let+ q1 := document_k f q in ret (tt, q1)) p3 in
            let p5 := snd (eat is_eol p4) in
            tick 4
            match eat_collapsible_end p5 with
            | (None, p6) =>
                tick 1 (ret (false, flip_to_literal start (truncate_ops snap (set_pos start p6))))
            | (Some end_range, p6) =>
                let+ ce := span_k end_range p6 in
                ret (true, push_op (new_end NCollapsible ce) p6)
            end)
      end
  end.

(** src/op/mod.rs 237-242 *)
Definition parse_k (input : str) : run (list op) :=
  let+ p0 := lift 0 (parser_from input) in
  let+ (_, p1) := metadata_k p0 in
  let+ p2 := document_k (3 * length (tokens p1) + 5) p1 in
  ret (ops p2).
