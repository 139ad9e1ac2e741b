(** The parser of Parser.v with the height of its call stack.

    The recursive functions of the code are [document] and [collapsible] (which call each other) and [list_inner] and
    [list_item] (which call each other). Every function below is the one of Parser.v and also returns the largest number
    of calls of these four that were active at the same time; all other functions add a fixed number of calls. The loops
    [document_loop] and [list_items] are no functions in the code. *)
From Verif Require Import Base Lexer Ops Parser Steps.

Definition hbind {A B} (m : run A) (f : A -> run B) : run B := let! (a, k) := m in let! (b, j) := f a in Ok (b, Nat.max k j).
Notation "'let^' x ':=' m 'in' k" := (hbind m (fun x => k))
  (at level 200, x pattern, m at level 100, k at level 200).
(** One more active call. *)
Definition frame {A} (m : run A) : run A := tick 1 m.
(** A function without recursion. *)
Definition flat {A} (m : outcome A) : run A := lift 0 m.
Definition orelse_h (f g : parser -> run (bool * parser)) (p : parser) : run (bool * parser) :=
  let^ (b, p1) := f p in if b then ret (true, p1) else g p1.
Definition with_eof_h {A} (c : stop_condition) (f : parser -> run (A * parser)) (p : parser) : run (A * parser) :=
  let^ (r, p1) := f (set_stack (c :: eof_stack p) p) in ret (r, set_stack (tl (eof_stack p1)) p1).

(** list.rs 14-73 *)
Fixpoint list_item_h (fuel : nat) (level : nat) (k : option list_kind) (p : parser) : run (option list_kind * parser) :=
  match fuel with
  | 0 => OutOfFuel
  | S f =>
      frame
      (if negb (at_ col0 p) then ret (None, p)
       else
        let marker_idx := pos p + (if level =? 0 then 0 else 1) in
        match get marker_idx p with
        | None => ret (None, p)
        | Some m =>
            match list_kind_of m with
            | None => ret (None, p)
            | Some marker_kind =>
                let preds := if level =? 0 then [is_list_marker k; is_space_1]
                             else [is_indent level; is_list_marker k; is_space_1] in
                match eat_seq preds p with
                | (None, p1) => ret (None, p1)
                | (Some start_range, p1) =>
                    let^ c := flat (span start_range p1) in
                    let p2 := push_op (new_start NListItem c) p1 in
                    let^ (_, p3) := flat (with_eof (StopListBoundary level marker_kind) paragraph p2) in
                    let^ p4 :=
                      (if negb (at_eof p3) then
                         let^ (_, q) := list_inner_h f (level + 1) p3 in ret q
                       else ret p3) in
                    ret (Some marker_kind, push_op (new_end NListItem no_content) p4)
                end
            end
        end)
  end
with list_inner_h (fuel : nat) (level : nat) (p : parser) : run (option list_kind * parser) :=
  match fuel with
  | 0 => OutOfFuel
  | S f =>
      frame
      (let snap := length (ops p) in
       let^ (o, p1) := list_item_h f level None p in
       match o with
       | None => ret (None, p1)
       | Some lk =>
           let^ p2 := flat (insert_op snap (new_start (list_kind_node lk) no_content) p1) in
           let^ p3 := list_items_h f level lk p2 in
           ret (Some lk, push_op (new_end (list_kind_node lk) no_content) p3)
       end)
  end
with list_items_h (fuel : nat) (level : nat) (lk : list_kind) (p : parser) : run parser :=
  match fuel with
  | 0 => OutOfFuel
  | S f =>
      let^ (o, p1) := list_item_h f level (Some lk) p in
      match o with
      | None => ret p1
      | Some _ => list_items_h f level lk p1
      end
  end.
Definition list_h (level : nat) (p : parser) : run (bool * parser) :=
  let^ (o, p1) := list_inner_h (2 * length (tokens p) + 3) level p in
  ret (match o with Some _ => true | None => false end, p1).

(** document.rs 51-76, collapsible.rs 27-64 *)
Definition simple_block_h (p : parser) : run (unit * parser) :=
  with_eof_h StopTerminator
    (fun q =>
       let^ (b, q1) := orelse_h (list_h 0) (fun q => flat (orelse images (orelse thematic_break heading) q)) q in
       if b then ret (tt, q1) else flat (paragraph q1)) p.
Fixpoint document_h (fuel : nat) (p : parser) : run parser :=
  match fuel with
  | 0 => OutOfFuel
  | S f =>
      frame
      (let p0 := push_op (new_start NDocument no_content) p in
       let^ p1 := document_loop_h f p0 in
       ret (push_op (new_end NDocument no_content) p1))
  end
with document_loop_h (fuel : nat) (p : parser) : run parser :=
  match fuel with
  | 0 => OutOfFuel
  | S f =>
      if at_eof p then ret p
      else
        let before := pos p in
        let^ p2 :=
          match eat is_terminator p with
          | (Some range, p1) =>
              let^ c := flat (span range p1) in ret (push_op (new_value c) p1)
          | (None, p1) =>
              let^ (b, q) := orelse_h (fun q => flat (code q)) (orelse_h (collapsible_h f) (fun q => flat (orelse embed highlight q))) p1 in
              if b then ret q
              else let^ (_, q1) := simple_block_h q in ret q1
          end in
        if before <? pos p2 then document_loop_h f p2 else Panic
  end
with collapsible_h (fuel : nat) (p : parser) : run (bool * parser) :=
  match fuel with
  | 0 => OutOfFuel
  | S f =>
      frame
      (let start := pos p in
       let snap := length (ops p) in
       match eat_seq [is_collapsible_start; is_space_or_eol] p with
       | (None, p1) => ret (false, p1)
       | (Some start_range, p1) =>
           let^ c := flat (span start_range p1) in
           let p2 := push_op (new_start NCollapsible c) p1 in
           let^ (_, p3) := flat (modifier p2) in
           if negb (at_ col0 p3) then
             ret (false, flip_to_literal start (truncate_ops snap (set_pos start p3)))
           else
             let^ (_, p4) :=
               with_eof_h StopCollapsibleEnd (fun q => let^ q1 := document_h f q in ret (tt, q1)) p3 in
             let p5 := snd (eat is_eol p4) in
             match eat_collapsible_end p5 with
             | (None, p6) =>
                 ret (false, flip_to_literal start (truncate_ops snap (set_pos start p6)))
             | (Some end_range, p6) =>
                 let^ ce := flat (span end_range p6) in
                 ret (true, push_op (new_end NCollapsible ce) p6)
             end
       end)
  end.

(** mod.rs 237-242: the operations and the height of the stack. *)
Definition parse_h (input : str) : run (list op) :=
  let^ p0 := flat (parser_from input) in
  let^ (_, p1) := flat (metadata p0) in
  let^ p2 := document_h (3 * length (tokens p1) + 5) p1 in
  ret (ops p2).
