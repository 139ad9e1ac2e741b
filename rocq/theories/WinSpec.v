(** What is left of Windows line endings where line feeds are trimmed. *)
From Verif Require Import Base Ops Ast.

(** [x] ends with a carriage return. *)
Definition ends_cr (x : str) : bool := match rev x with c :: _ => char_eqb c c_cr | [] => false end.
(** Leading pairs CR LF; trailing pairs, of the reversed text. *)
Fixpoint drop_front (x : str) : str :=
  match x with
  | a :: ((b :: x') as x1) => if char_eqb a c_cr && char_eqb b c_nl then drop_front x' else x
  | _ => x
  end.
Fixpoint drop_back (r : str) : str :=
  match r with
  | a :: ((b :: r') as r1) => if char_eqb a c_nl && char_eqb b c_cr then drop_back r' else r
  | _ => r
  end.
(** A text that ends with a carriage return, without it and the pairs before it. *)
Definition strip_end (x : str) : str :=
  match rev x with
  | c :: r => if char_eqb c c_cr then rev (drop_back r) else x
  | [] => x
  end.
Definition strip_pars (l : list par_node) : list par_node :=
  match rev l with
  | PText t :: r => if ends_cr t then match strip_end t with [] => rev r | t' => rev r ++ [PText t'] end else l
  | _ => l
  end.
Fixpoint strip_list (l : ylist) : ylist :=
  match l with YList ty level items => YList ty level (map strip_item items) end
with strip_item (it : yitem) : yitem :=
  match it with YItem text nested => YItem (strip_pars text) match nested with Some l => Some (strip_list l) | None => None end end.
Fixpoint strip_node (n : ynode) : ynode :=
  match n with
  | YCode l c => YCode l (strip_end c)
  | YListNode l => YListNode (strip_list l)
  | YHighlight t i ps => YHighlight t i (map strip_pars ps)
  | YCollapsible t b => YCollapsible t (map strip_node b)
  | _ => n
  end.
(** Code, list items and paragraphs of highlights at their end, metadata at both. *)
Definition strip_yamd (y : yamd) : yamd :=
  mk_yamd (option_map (fun m => drop_front (strip_end m)) (metadata y)) (map strip_node (body y)).
