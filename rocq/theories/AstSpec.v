(** Vocabulary for statements about documents: all nodes of a document at any depth, all inline
    bodies, and the normal form that deserialized documents have.  Uses only the data types of Ast.v. *)
From Verif Require Import Base Ops StreamSpec Ast.

(** A node and everything nested in it. *)
Fixpoint all_nodes (n : ynode) : list ynode :=
  n :: match n with YCollapsible _ b => flat_map all_nodes b | _ => [] end.
Definition doc_nodes (y : yamd) : list ynode := flat_map all_nodes (body y).

(** The texts of the items of a list and its sublists. *)
Fixpoint item_bodies (l : ylist) : list (list par_node) :=
  match l with
  | YList _ _ its =>
      flat_map (fun it => match it with
                          | YItem t nested => t :: match nested with Some l' => item_bodies l' | None => [] end
                          end) its
  end.

(** Bodies of paragraphs; the ones of highlights and list items, where a final line feed is cut off. *)
Definition trimmed_bodies (n : ynode) : list (list par_node) :=
  match n with YHighlight _ _ ps => ps | YListNode l => item_bodies l | _ => [] end.
Definition inline_bodies (n : ynode) : list (list par_node) :=
  match n with YParagraph b => [b] | _ => trimmed_bodies n end.
Definition doc_bodies (y : yamd) : list (list par_node) := flat_map inline_bodies (doc_nodes y).

(** No two neighbours are [bad]. *)
Fixpoint no_neighbours {A} (bad : A -> A -> bool) (l : list A) : Prop :=
  match l with
  | p :: ((q :: _) as l') => bad p q = false /\ no_neighbours bad l'
  | _ => True
  end.

Definition is_ptext (p : par_node) : bool := match p with PText _ => true | _ => false end.
Definition is_btext (p : bold_node) : bool := match p with BText _ => true | _ => false end.
Definition is_htext (p : head_node) : bool := match p with HText _ => true | _ => false end.
Definition both {A} (f : A -> bool) (p q : A) : bool := f p && f q.

(** Neighbours whose delimiters would be one run of equal characters. *)
Definition is_star_node (p : par_node) : bool := match p with PBold _ | PEmphasis _ => true | _ => false end.
Definition is_tilde_node (p : par_node) : bool := match p with PStrike _ => true | _ => false end.
Definition is_backtick_node (p : par_node) : bool := match p with PCodeSpan _ => true | _ => false end.
Definition fuse (p q : par_node) : bool := both is_star_node p q || both is_tilde_node p q || both is_backtick_node p q.
Definition is_bstrike (p : bold_node) : bool := match p with BStrike _ => true | _ => false end.

(** A list with level [lvl] at the top, one more below. *)
Fixpoint levels_ok (lvl : nat) (l : ylist) : Prop :=
  match l with
  | YList _ l0 its =>
      l0 = lvl /\ its <> [] /\
      fold_right and True
        (map (fun it => match it with YItem _ (Some l') => levels_ok (S lvl) l' | YItem _ None => True end) its)
  end.

Definition ends_with_nl (x : str) : Prop := exists y, x = y ++ [c_nl].
Definition starts_with_nl (x : str) : Prop := exists y, x = c_nl :: y.

(** Levels of the headings, in order. *)
Definition heading_levels (n : ynode) : list nat := match n with YHeading l _ => [l] | _ => [] end.
(** Numbers of [#] in front of the headings in a stream. *)
Definition stream_levels (es : list event) : list nat :=
  flat_map (fun e => match fst e with
                     | Start NHeading => [length (filter (fun c => char_eqb c c_hash) (snd e))]
                     | _ => [] end) es.
