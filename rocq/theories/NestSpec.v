(** How deep the blocks of a document are nested.  Nothing here refers to the lexer or the parser. *)
From Verif Require Import Base Ast.

(** [l] is a list with lists in lists, [d] of them in one another. *)
Inductive levels : nat -> ylist -> Prop :=
| levels_one : forall ty lvl its, levels 1 (YList ty lvl its)
| levels_more : forall d ty lvl its x l, In (YItem x (Some l)) its -> levels d l -> levels (S d) (YList ty lvl its).

(** The block has [c] collapsibles in one another, the innermost around a list with [d] levels. *)
Inductive nest : nat -> nat -> ynode -> Prop :=
| nest_none : forall n, nest 0 0 n
| nest_list : forall d l, levels d l -> nest 0 d (YListNode l)
| nest_collapsible : forall t b, nest 1 0 (YCollapsible t b)
| nest_inside : forall c d t b n, In n b -> nest c d n -> nest (S c) d (YCollapsible t b).

(** The largest number of lists and collapsibles in one another; writing, copying, comparing or dropping
    a document goes down one such step at a time. *)
Fixpoint list_height (l : ylist) : nat :=
  match l with YList _ _ its => S (list_max (map item_height its)) end
with item_height (it : yitem) : nat :=
  match it with YItem _ (Some l) => list_height l | YItem _ None => 0 end.
Fixpoint height (n : ynode) : nat :=
  match n with
  | YListNode l => list_height l
  | YCollapsible _ b => S (list_max (map height b))
  | _ => 0
  end.
Definition doc_height (y : yamd) : nat := list_max (map height (body y)).
