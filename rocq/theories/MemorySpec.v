(** A parser without memory: a failed attempt to read a collapsible block changes no token.

    [yamd] turns the [{%] of a failed attempt into a literal (src/op/collapsible.rs:27), also when the attempt was part of
    one that failed itself.  Here nothing is remembered, and the only context is whether we are inside of a collapsible block. *)
From Verif Require Import Base Lexer LexSpec Ops Parser FParser StreamSpec MissSpec BorderSpec.

Definition around (inside : bool) : list stop_condition := if inside then [StopCollapsibleEnd] else [].

Fixpoint pdoc (n : nat) (inside : bool) (ts : list token) : list tree * list token :=
  match n with
  | 0 => ([], ts)
  | S n' =>
      match ts with
      | [] => ([], ts)
      | t :: r =>
          if stopped (around inside) ts then ([], ts)
          else
            let '(x, r1) :=
              if is_terminator t then (Leaf [t], r)
              else
                match fcode (around inside) ts with
                | Some y => y
                | None =>
                    match pcoll n' inside ts with
                    | Some y => y
                    | None =>
                        match forelse fembed fhighlight (around inside) ts with
                        | Some y => y
                        | None => fsimple (around inside) ts
                        end
                    end
                end in
            let (k, r2) := pdoc n' inside r1 in (x :: k, r2)
      end
  end
with pcoll (n : nat) (inside : bool) (ts : list token) : option (tree * list token) :=
  match n with
  | 0 => None
  | S n' =>
      match fseq [is_collapsible_start; is_space_or_eol] ts with
      | None => None
      | Some (o, r) =>
          let (k1, r1) := opt_tree (fmodifier (around inside) r) r in
          if nth_is 0 col0 r1 then
            let (k2, r2) := pdoc n' true r1 in
            let (k3, r3) :=
              match r2 with
              | e :: r3 => if is_eol e then ([Skip [e]], r3) else ([], r2)
              | [] => ([], r2)
              end in
            match fcollapsible_end r3 with
            | None => None
            | Some (c, rest) => Some (Node NCollapsible o (k1 ++ [Node NDocument [] k2 []] ++ k3) c, rest)
            end
          else None
      end
  end.

Definition pparse (ts : list token) : list tree :=
  let (k1, r1) := opt_tree (fmetadata [] ts) ts in
  let (k2, r2) := pdoc (3 * length r1 + 5) false r1 in
  k1 ++ [Node NDocument [] k2 []].

(** A line [{% title] directly followed by a line that starts with [%}]. *)
Definition empty_block (ts : list token) : Prop :=
  exists a o u b c r, ts = a ++ o :: u :: b ++ c :: r /\ opening_brace o /\ kind u = Space /\ title_line b /\ closing_brace c.
