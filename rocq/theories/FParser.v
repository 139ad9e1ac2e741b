(** A functional parser on lists of tokens that builds concrete syntax trees.  It has no
    position, no op buffer, no backtracking state; Refine.v proves that the model of the Rust
    parser emits exactly the ops of these trees. *)
From Verif Require Import Base Lexer Ops Parser.

(** ** Trees *)

(** [Leaf] is a run of tokens emitted as one [Value] op; [Skip] tokens are consumed without any
    op; [Node] is a [Start]/[End] pair. *)
Inductive tree :=
| Leaf (ts : list token)
| Skip (ts : list token)
| Node (n : node) (op_ : list token) (kids : list tree) (cl : list token).

(** All tokens of a tree, in order. *)
Fixpoint yield (t : tree) : list token :=
  match t with
  | Leaf ts => ts
  | Skip ts => ts
  | Node _ o k c => o ++ flat_map yield k ++ c
  end.
Definition yields (k : list tree) : list token := flat_map yield k.

(** Text of tokens. *)
Definition ttext (src : str) (t : token) : str :=
  match slice src (t_start t) (t_end t) with Ok x => x | _ => [] end.
Definition ttexts (src : str) (ts : list token) : str := flat_map (ttext src) ts.

(** Content of an op that stands for the tokens [ts]. *)
Definition content_of (src : str) (ts : list token) : content :=
  match ts with
  | [] => Span 0 0
  | t :: _ =>
      if existsb escaped ts && negb (is_contiguous ts) then Materialized (ttexts src ts)
      else Span (t_start t) (t_end (last ts t))
  end.

(** The ops of a tree. *)
Fixpoint flatten (src : str) (t : tree) : list op :=
  match t with
  | Leaf ts => [new_value (content_of src ts)]
  | Skip _ => []
  | Node n o k c =>
      new_start n (content_of src o) :: flat_map (flatten src) k ++ [new_end n (content_of src c)]
  end.
Definition flattens (src : str) (k : list tree) : list op := flat_map (flatten src) k.

(** A text node, if there is any text. *)
Definition leaf (ts : list token) : list tree := match ts with [] => [] | _ => [Leaf ts] end.

(** ** Stop conditions *)

Definition nth_is (i : nat) (f : token -> bool) (ts : list token) : bool := is_some_and f (nth_error ts i).

Definition boundary_at (level : nat) (k : option list_kind) (ts : list token) : bool :=
  if level =? 0
  then nth_is 0 col0 ts && (nth_is 0 (is_list_marker k) ts && nth_is 1 is_space_1 ts)
  else nth_is 0 col0 ts
       && (nth_is 0 (is_indent level) ts && (nth_is 1 (is_list_marker k) ts && nth_is 2 is_space_1 ts)).

Definition fmatches (c : stop_condition) (ts : list token) : bool :=
  match c with
  | StopTerminator => nth_is 0 is_terminator ts
  | StopCollapsibleEnd =>
      nth_is 0 is_collapsible_end ts || (nth_is 0 is_eol ts && nth_is 1 is_collapsible_end ts)
  | StopHighlightEnd => nth_is 0 is_two_bangs ts
  | StopListBoundary cur k =>
      nth_is 0 col0 ts
      && existsb (fun level => boundary_at level (if level =? cur then Some k else None) ts)
           (seq 0 (S (cur + 1)))
  end.

Definition stopped (st : list stop_condition) (ts : list token) : bool :=
  match ts with [] => true | _ => existsb (fun c => fmatches c ts) st end.

(** ** Inline nodes *)

(** Tokens up to the first one that satisfies [m], unless a stop comes first. *)
Fixpoint until (st : list stop_condition) (m : token -> bool) (ts : list token)
  : option (list token * token * list token) :=
  match ts with
  | [] => None
  | t :: r =>
      if stopped st ts then None
      else if m t then Some ([], t, r)
      else match until st m r with
           | Some (b, c, rest) => Some (t :: b, c, rest)
           | None => None
           end
  end.

Definition fparser := list stop_condition -> list token -> option (tree * list token).

Definition forelse (f g : fparser) : fparser :=
  fun st ts => match f st ts with Some r => Some r | None => g st ts end.

Definition fdelim (n : node) (is_open is_close : token -> bool) : fparser :=
  fun st ts =>
    match ts with
    | t :: r =>
        if is_open t then
          match until st is_close r with
          | Some (b, c, rest) => Some (Node n [t] [Leaf b] [c], rest)
          | None => None
          end
        else None
    | [] => None
    end.

Definition fmetadata : fparser := fdelim NMetadata is_three_dashes is_three_dashes.
Definition ftitle : fparser := fdelim NTitle is_left_bracket is_right_bracket.
Definition fitalic : fparser := fdelim NItalic is_underscore is_underscore.
Definition fstrike : fparser := fdelim NStrikethrough is_tilde is_tilde.
Definition femphasis : fparser := fdelim NEmphasis is_star is_star.
Definition fcode_span : fparser := fdelim NCodeSpan is_backtick is_backtick.

(** Up to the balancing parenthesis, or else the last closing one before a stop. *)
Fixpoint dest_scan (st : list stop_condition) (count : nat) (ts : list token)
  : option (list token * token * list token) :=
  match ts with
  | [] => None
  | t :: r =>
      if stopped st ts then None
      else
        let more n :=
          match dest_scan st n r with
          | Some (b, c, rest) => Some (t :: b, c, rest)
          | None => None
          end in
        match kind t with
        | LeftParenthesis => more (count + 1)
        | RightParenthesis =>
            if count - 1 =? 0 then Some ([], t, r)
            else match more (count - 1) with
                 | Some x => Some x
                 | None => Some ([], t, r)
                 end
        | _ => more count
        end
  end.

Definition fdest : fparser :=
  fun st ts =>
    match ts with
    | t :: r =>
        if is_left_paren t then
          match dest_scan st 1 r with
          | Some (b, c, rest) => Some (Node NDestination [t] [Leaf b] [c], rest)
          | None => None
          end
        else None
    | [] => None
    end.

Definition fanchor : fparser :=
  fun st ts =>
    match ftitle st ts with
    | None => None
    | Some (t1, r1) =>
        match fdest st r1 with
        | None => None
        | Some (t2, r2) => Some (Node NAnchor [] [t1; t2] [], r2)
        end
    end.

Fixpoint fbold_loop (n : nat) (st : list stop_condition) (acc : list token) (ts : list token)
  : option (list tree * token * list token) :=
  match n with
  | 0 => None
  | S n' =>
      match ts with
      | [] => None
      | t :: r =>
          if stopped st ts then None
          else if is_star2 t then Some (leaf acc, t, r)
          else
            match forelse fstrike fitalic st ts with
            | Some (x, rest) =>
                match fbold_loop n' st [] rest with
                | Some (k, c, rest') => Some (leaf acc ++ x :: k, c, rest')
                | None => None
                end
            | None => fbold_loop n' st (acc ++ [t]) r
            end
      end
  end.

Definition fbold : fparser :=
  fun st ts =>
    match ts with
    | t :: r =>
        if is_star2 t then
          match fbold_loop (S (length r)) st [] r with
          | Some (k, c, rest) => Some (Node NBold [t] k [c], rest)
          | None => None
          end
        else None
    | [] => None
    end.

Definition finline : fparser :=
  forelse fstrike (forelse fitalic (forelse fbold (forelse fanchor (forelse fcode_span femphasis)))).

(** Text and nodes parsed by [f] up to a stop. *)
Fixpoint fitems (f : fparser) (n : nat) (st : list stop_condition) (acc : list token)
  (ts : list token) : list tree * list token :=
  match n with
  | 0 => ([], ts)
  | S n' =>
      if stopped st ts then (leaf acc, ts)
      else
        match f st ts with
        | Some (x, rest) =>
            let (k, rest') := fitems f n' st [] rest in (leaf acc ++ x :: k, rest')
        | None =>
            match ts with
            | [] => (leaf acc, ts)
            | t :: r => fitems f n' st (acc ++ [t]) r
            end
        end
  end.

Definition fparagraph (st : list stop_condition) (ts : list token) : tree * list token :=
  let (k, rest) := fitems finline (S (length ts)) st [] ts in (Node NParagraph [] k [], rest).

(** ** Block nodes *)

Definition fheading : fparser :=
  fun st ts =>
    match ts with
    | t :: u :: r =>
        if is_hash t && is_space_1 u then
          let (k, rest) := fitems fanchor (S (length r)) st [] r in
          Some (Node NHeading [t; u] k [], rest)
        else None
    | _ => None
    end.

Definition fimage : fparser :=
  fun st ts =>
    match ts with
    | t :: r =>
        if is_bang t then
          match ftitle st r with
          | None => None
          | Some (t1, r1) =>
              match fdest st r1 with
              | None => None
              | Some (t2, r2) =>
                  match r2 with
                  | e :: r3 =>
                      if is_eol e then Some (Node NImage [t] [t1; t2] [e], r3)
                      else if stopped st r2 then Some (Node NImage [t] [t1; t2] [], r2)
                      else None
                  | [] => Some (Node NImage [t] [t1; t2] [], [])
                  end
              end
          end
        else None
    | [] => None
    end.

Fixpoint fimages_loop (n : nat) (st : list stop_condition) (ts : list token)
  : option (list tree * list token) :=
  match n with
  | 0 => None
  | S n' =>
      match ts with
      | [] => Some ([], [])
      | _ =>
          match fimage st ts with
          | Some (x, rest) =>
              match fimages_loop n' st rest with
              | Some (k, rest') => Some (x :: k, rest')
              | None => None
              end
          | None => if stopped st ts then Some ([], ts) else None
          end
      end
  end.

Definition fimages : fparser :=
  fun st ts =>
    match fimages_loop (S (length ts)) st ts with
    | None => None
    | Some ([], _) => None
    | Some ([x], rest) => Some (x, rest)
    | Some (k, rest) => Some (Node NImages [] k [], rest)
    end.

Definition fmodifier : fparser :=
  fun st ts =>
    if nth_is 0 col0 ts then None
    else match until st is_eol_or_terminator ts with
         | Some (b, c, rest) => Some (Node NModifier [] [Leaf b] [c], rest)
         | None => None
         end.

Definition fbreak : fparser :=
  fun st ts =>
    match ts with
    | t :: r => if is_dash5 t then Some (Node NThematicBreak [] [Leaf [t]] [], r) else None
    | [] => None
    end.

(** [preds] hold of the first tokens. *)
Fixpoint fseq (preds : list (token -> bool)) (ts : list token) : option (list token * list token) :=
  match preds with
  | [] => Some ([], ts)
  | f :: fs =>
      match ts with
      | t :: r =>
          if f t then match fseq fs r with Some (a, b) => Some (t :: a, b) | None => None end
          else None
      | [] => None
      end
  end.

Definition marker_preds (level : nat) (k : option list_kind) : list (token -> bool) :=
  if level =? 0 then [is_list_marker k; is_space_1]
  else [is_indent level; is_list_marker k; is_space_1].

Fixpoint fitem (n : nat) (level : nat) (k : option list_kind) (st : list stop_condition)
  (ts : list token) : option (list_kind * tree * list token) :=
  match n with
  | 0 => None
  | S n' =>
      if negb (nth_is 0 col0 ts) then None
      else
        match nth_error ts (if level =? 0 then 0 else 1) with
        | None => None
        | Some m =>
            match list_kind_of m with
            | None => None
            | Some mk =>
                match fseq (marker_preds level k) ts with
                | None => None
                | Some (o, r) =>
                    let (par, r1) := fparagraph (StopListBoundary level mk :: st) r in
                    if negb (stopped st r1) then
                      match flist n' (level + 1) st r1 with
                      | Some (_, x, r2) => Some (mk, Node NListItem o [par; x] [], r2)
                      | None => Some (mk, Node NListItem o [par] [], r1)
                      end
                    else Some (mk, Node NListItem o [par] [], r1)
                end
            end
        end
  end
with flist (n : nat) (level : nat) (st : list stop_condition) (ts : list token)
  : option (list_kind * tree * list token) :=
  match n with
  | 0 => None
  | S n' =>
      match fitem n' level None st ts with
      | None => None
      | Some (lk, x, r) =>
          let (k, r1) := flist_items n' level lk st r in
          Some (lk, Node (list_kind_node lk) [] (x :: k) [], r1)
      end
  end
with flist_items (n : nat) (level : nat) (lk : list_kind) (st : list stop_condition)
  (ts : list token) : list tree * list token :=
  match n with
  | 0 => ([], ts)
  | S n' =>
      match fitem n' level (Some lk) st ts with
      | None => ([], ts)
      | Some (_, x, r) => let (k, r1) := flist_items n' level lk st r in (x :: k, r1)
      end
  end.

Definition flist0 : fparser :=
  fun st ts =>
    match flist (2 * length ts + 3) 0 st ts with
    | Some (_, x, r) => Some (x, r)
    | None => None
    end.

Definition ficon : fparser :=
  fun st ts =>
    match fseq [is_one_bang; is_space_1] ts with
    | None => None
    | Some (o, r) =>
        match until st is_eol r with
        | Some (b, c, rest) => Some (Node NIcon o [Leaf b] [c], rest)
        | None => None
        end
    end.

(** A delimiter token with the line ending after it, if any. *)
Definition with_eol (c : token) (ts : list token) : list token * list token :=
  match ts with
  | e :: r => if is_eol e then ([c; e], r) else ([c], ts)
  | [] => ([c], ts)
  end.

Fixpoint fhighlight_loop (n : nat) (st : list stop_condition) (ts : list token)
  : option (list tree * list token * list token) :=
  match n with
  | 0 => None
  | S n' =>
      match ts with
      | [] => None
      | t :: r =>
          if stopped st ts then None
          else if is_two_bangs t then
            let (c, rest) := with_eol t r in Some ([], c, rest)
          else
            let '(l, r1) := if is_terminator t then ([Leaf [t]], r) else ([], ts) in
            let (par, r2) := fparagraph (StopTerminator :: StopHighlightEnd :: st) r1 in
            match fhighlight_loop n' st r2 with
            | Some (k, c, rest) => Some (l ++ par :: k, c, rest)
            | None => None
            end
      end
  end.

Definition opt_tree (o : option (tree * list token)) (ts : list token) : list tree * list token :=
  match o with Some (x, r) => ([x], r) | None => ([], ts) end.

Definition fhighlight : fparser :=
  fun st ts =>
    match fseq [is_two_bangs; fun t => is_space_1 t || is_eol t] ts with
    | None => None
    | Some (o, r) =>
        let skip_title := is_eol (last o (mk_token Literal 0 0 (mk_pos 0 0 0) false)) in
        let (k1, r1) := if negb skip_title then opt_tree (fmodifier st r) r else ([], r) in
        let (k2, r2) := opt_tree (ficon (StopTerminator :: st) r1) r1 in
        if nth_is 0 col0 r2 then
          match fhighlight_loop (S (length r2)) st r2 with
          | Some (k3, c, rest) => Some (Node NHighlight o (k1 ++ k2 ++ k3) c, rest)
          | None => None
          end
        else None
    end.

(** Closing delimiter at the end of a line or block. *)
Definition fclose_line (st : list stop_condition) (c : token) (ts : list token)
  : option (list token * list token) :=
  match ts with
  | e :: r =>
      if is_eol e then Some ([c; e], r)
      else if stopped st ts || is_terminator e then Some ([c], ts) else None
  | [] => Some ([c], [])
  end.

Definition fembed : fparser :=
  fun st ts =>
    match ts with
    | t :: r =>
        if is_left_curly2 t then
          match until st is_pipe r with
          | None => None
          | Some (b1, s, r1) =>
              match until st is_right_curly2 r1 with
              | None => None
              | Some (b2, c, r2) =>
                  match fclose_line st c r2 with
                  | None => None
                  | Some (cl, rest) => Some (Node NEmbed [t] [Leaf b1; Leaf [s]; Leaf b2] cl, rest)
                  end
              end
          end
        else None
    | [] => None
    end.

Definition ffence (ts : list token) : option (list token * list token) :=
  match fseq [is_backtick3; is_eol] ts with
  | Some r => Some r
  | None => fseq [is_backtick3] ts
  end.

Definition fcode : fparser :=
  fun st ts =>
    match ffence ts with
    | None => None
    | Some (o, r) =>
        let with_modifier := negb (is_eol (last o (mk_token Literal 0 0 (mk_pos 0 0 0) false))) in
        let (k1, r1) := if with_modifier then opt_tree (fmodifier [] r) r else ([], r) in
        match until [] is_backtick3 r1 with
        | None => None
        | Some (b, c, r2) =>
            match fclose_line st c r2 with
            | None => None
            | Some (cl, rest) => Some (Node NCode o (k1 ++ [Leaf b]) cl, rest)
            end
        end
    end.

Definition fcollapsible_end (ts : list token) : option (list token * list token) :=
  match fseq [is_collapsible_end; is_eol] ts with
  | Some r => Some r
  | None => fseq [is_collapsible_end] ts
  end.

Definition fsimple (st : list stop_condition) (ts : list token) : tree * list token :=
  let st' := StopTerminator :: st in
  match forelse flist0 (forelse fimages (forelse fbreak fheading)) st' ts with
  | Some r => r
  | None => fparagraph st' ts
  end.

(** The first token turned into a literal. *)
Definition flip_head (ts : list token) : list token :=
  match ts with t :: r => literal_of t :: r | [] => [] end.

(** Result of [collapsible]: a tree, or failure together with the tokens as they are afterwards
    (failed attempts turn their [{%] into a literal). *)
Inductive cres := CMatch (t : tree) (rest : list token) | CFail (ts : list token).

(** The blocks up to a stop. *)
Fixpoint fdoc (n : nat) (st : list stop_condition) (ts : list token) : list tree * list token :=
  match n with
  | 0 => ([], ts)
  | S n' =>
      match ts with
      | [] => ([], ts)
      | t :: r =>
          if stopped st ts then ([], ts)
          else
            let '(x, r1) :=
              if is_terminator t then (Leaf [t], r)
              else
                match fcode st ts with
                | Some y => y
                | None =>
                    match fcollapsible n' st ts with
                    | CMatch y r1 => (y, r1)
                    | CFail ts' =>
                        match forelse fembed fhighlight st ts' with
                        | Some y => y
                        | None => fsimple st ts'
                        end
                    end
                end in
            let (k, r2) := fdoc n' st r1 in (x :: k, r2)
      end
  end
with fcollapsible (n : nat) (st : list stop_condition) (ts : list token) : cres :=
  match n with
  | 0 => CFail ts
  | S n' =>
      match fseq [is_collapsible_start; is_space_or_eol] ts with
      | None => CFail ts
      | Some (o, r) =>
          let (k1, r1) := opt_tree (fmodifier st r) r in
          if nth_is 0 col0 r1 then
            let (k2, r2) := fdoc n' (StopCollapsibleEnd :: st) r1 in
            let (k3, r3) :=
              match r2 with
              | e :: r3 => if is_eol e then ([Skip [e]], r3) else ([], r2)
              | [] => ([], r2)
              end in
            match fcollapsible_end r3 with
            | None => CFail (flip_head (o ++ yields k1 ++ yields k2 ++ yields k3 ++ r3))
            | Some (c, rest) =>
                CMatch (Node NCollapsible o (k1 ++ [Node NDocument [] k2 []] ++ k3) c) rest
            end
          else CFail (flip_head ts)
      end
  end.

(** The whole token list: optional metadata and the document. *)
Definition fparse (ts : list token) : list tree :=
  let (k1, r1) := opt_tree (fmetadata [] ts) ts in
  let (k2, r2) := fdoc (3 * length r1 + 5) [] r1 in
  k1 ++ [Node NDocument [] k2 []].
