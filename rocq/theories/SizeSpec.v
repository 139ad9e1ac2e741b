(** Vocabulary for sizes: the number of nodes of a document.  Every struct and every text of the
    document counts as one: src/nodes/*.rs.  Nothing here refers to the lexer or the parser. *)
From Verif Require Import Base Ast.

Definition par_nodes (p : par_node) : nat := match p with PBold b => S (length b) | _ => 1 end.
Definition pars_nodes (l : list par_node) : nat := list_sum (map par_nodes l).

Fixpoint list_nodes (l : ylist) : nat :=
  match l with
  | YList _ _ items =>
      S (list_sum (map (fun it => match it with YItem text nested =>
           S (pars_nodes text + match nested with Some l' => list_nodes l' | None => 0 end) end) items))
  end.

Fixpoint block_nodes (y : ynode) : nat :=
  match y with
  | YParagraph l => S (pars_nodes l)
  | YHeading _ l => S (length l)
  | YImages l => S (length l)
  | YListNode l => list_nodes l
  | YHighlight _ _ ps => S (list_sum (map (fun p => S (pars_nodes p)) ps))
  | YCollapsible _ b => S (list_sum (map block_nodes b))
  | YImage _ | YCode _ _ | YThematicBreak | YEmbed _ _ => 1
  end.

Definition doc_nodes (y : yamd) : nat := list_sum (map block_nodes (body y)).
