(** A strict variant of src/op/to_yamd.rs: every arm that silently drops something (the ones marked
    "defensive" in the source, and an [End] that does not fit the frame) fails instead.  Used to state
    that none of these arms is ever taken on the stream of [parse]. *)
From Verif Require Import Base Lexer Ops Ast ToYamd.

(** A node that a document can hold. *)
Definition push_block (n : ynode) (s : stack) : option stack :=
  match s with FDocument ch :: r => Some (FDocument (ch ++ [n]) :: r) | _ => None end.

(** End of node [n] with the finished frame [f] on top of [s]. *)
Definition strict_end (n : node) (f : frame) (s : stack) : option stack :=
  match n, f, s with
  | NDocument, FDocument ch, FCollapsible t _ :: r => Some (FCollapsible t ch :: r)
  | NDocument, FDocument ch, FYamd m b :: r => Some (FYamd m (b ++ ch) :: r)
  | NMetadata, FMetadata t, FYamd None b :: r => Some (FYamd (Some (trim_both c_nl t)) b :: r)
  | NHeading, FHeading l b, _ => push_block (YHeading l b) s
  | NParagraph, FParagraph b, FHighlight t i ps :: r =>
      Some (FHighlight t i (ps ++ [trim_trailing_newline_from_text b]) :: r)
  | NParagraph, FParagraph b, FListItem [] None :: r =>
      Some (FListItem (trim_trailing_newline_from_text b) None :: r)
  | NParagraph, FParagraph b, _ => push_block (YParagraph b) s
  | NBold, FBold b, FParagraph p :: r => Some (FParagraph (p ++ [PBold b]) :: r)
  | NItalic, FItalic t, FParagraph p :: r => Some (FParagraph (p ++ [PItalic t]) :: r)
  | NItalic, FItalic t, FBold p :: r => Some (FBold (p ++ [BItalic t]) :: r)
  | NStrikethrough, FStrikethrough t, FParagraph p :: r => Some (FParagraph (p ++ [PStrike t]) :: r)
  | NStrikethrough, FStrikethrough t, FBold p :: r => Some (FBold (p ++ [BStrike t]) :: r)
  | NCodeSpan, FCodeSpan t, FParagraph p :: r => Some (FParagraph (p ++ [PCodeSpan t]) :: r)
  | NEmphasis, FEmphasis t, FParagraph p :: r => Some (FParagraph (p ++ [PEmphasis t]) :: r)
  | NTitle, FTitle t, FAnchor [] [] :: r => Some (FAnchor t [] :: r)
  | NTitle, FTitle t, FImage [] [] :: r => Some (FImage t [] :: r)
  | NDestination, FDestination t, FAnchor x [] :: r => Some (FAnchor x t :: r)
  | NDestination, FDestination t, FImage x [] :: r => Some (FImage x t :: r)
  | NAnchor, FAnchor t u, FParagraph p :: r => Some (FParagraph (p ++ [PAnchor t u]) :: r)
  | NAnchor, FAnchor t u, FHeading l p :: r => Some (FHeading l (p ++ [HAnchor t u]) :: r)
  | NImage, FImage a u, FImages l :: r => Some (FImages (l ++ [mk_image a u]) :: r)
  | NImage, FImage a u, _ => push_block (YImage (mk_image a u)) s
  | NImages, FImages l, _ => push_block (YImages l) s
  | NCode, FCode l c, _ => push_block (code_new l (trim_end c_nl c)) s
  | NModifier, FModifier t, FCode [] [] :: r => Some (FCode t [] :: r)
  | NModifier, FModifier t, FHighlight None None [] :: r => Some (FHighlight (Some t) None [] :: r)
  | NModifier, FModifier t, FCollapsible [] [] :: r => Some (FCollapsible t [] :: r)
  | NIcon, FIcon t, FHighlight ti None [] :: r => Some (FHighlight ti (Some t) [] :: r)
  | NEmbed, FEmbed [k; _; a], _ => push_block (YEmbed k a) s
  | NThematicBreak, FThematicBreak, _ => push_block YThematicBreak s
  | NHighlight, FHighlight t i ps, _ => push_block (YHighlight t i ps) s
  | NCollapsible, FCollapsible t b, _ => push_block (YCollapsible t b) s
  | NUnorderedList, FUnorderedList l its, FListItem x None :: r => Some (FListItem x (Some (YList LUnordered l its)) :: r)
  | NUnorderedList, FUnorderedList l its, _ => push_block (YListNode (YList LUnordered l its)) s
  | NOrderedList, FOrderedList l its, FListItem x None :: r => Some (FListItem x (Some (YList LOrdered l its)) :: r)
  | NOrderedList, FOrderedList l its, _ => push_block (YListNode (YList LOrdered l its)) s
  | NListItem, FListItem t nested, FUnorderedList l its :: r => Some (FUnorderedList l (its ++ [YItem t nested]) :: r)
  | NListItem, FListItem t nested, FOrderedList l its :: r => Some (FOrderedList l (its ++ [YItem t nested]) :: r)
  | _, _, _ => None
  end.

(** Text [x] for the top frame.  Documents and highlights ignore the blank lines between their
    children, a thematic break its dashes. *)
Definition strict_value (x : str) (s : stack) : option stack :=
  match s with
  | FHeading l b :: r => Some (FHeading l (b ++ [HText x]) :: r)
  | FParagraph b :: r => Some (FParagraph (b ++ [PText x]) :: r)
  | FBold b :: r => Some (FBold (b ++ [BText x]) :: r)
  | FItalic [] :: r => Some (FItalic x :: r)
  | FStrikethrough [] :: r => Some (FStrikethrough x :: r)
  | FCodeSpan [] :: r => Some (FCodeSpan x :: r)
  | FEmphasis [] :: r => Some (FEmphasis x :: r)
  | FTitle [] :: r => Some (FTitle x :: r)
  | FDestination [] :: r => Some (FDestination x :: r)
  | FModifier [] :: r => Some (FModifier x :: r)
  | FIcon [] :: r => Some (FIcon x :: r)
  | FCode l [] :: r => Some (FCode l x :: r)
  | FEmbed vs :: r => Some (FEmbed (vs ++ [x]) :: r)
  | FMetadata [] :: r => Some (FMetadata x :: r)
  | FThematicBreak :: _ | FDocument _ :: _ | FHighlight _ _ _ :: _ => Some s
  | _ => None
  end.

Definition strict_start (n : node) (x : str) (s : stack) : option stack :=
  match n with
  | NHeading =>
      let l := count_hashes x in
      if (1 <=? l) && (l <=? 6) then Some (FHeading l [] :: s) else None
  | NUnorderedList => Some (FUnorderedList (count_list_depth s) [] :: s)
  | NOrderedList => Some (FOrderedList (count_list_depth s) [] :: s)
  | _ => match from_node n with Ok f => Some (f :: s) | _ => None end
  end.

Definition strict_step (source : str) (o : op) (s : stack) : option stack :=
  match as_str source (op_content o) with
  | Ok x =>
      match op_kind_of o with
      | Start n => strict_start n x s
      | Value => strict_value x s
      | End n => match s with f :: r => strict_end n f r | [] => None end
      end
  | _ => None
  end.

Fixpoint strict_run (source : str) (l : list op) (s : stack) : option stack :=
  match l with
  | [] => Some s
  | o :: l' => match strict_step source o s with Some s' => strict_run source l' s' | None => None end
  end.

(** Exactly the bottom frame must be left. *)
Definition strict_to_yamd (l : list op) (source : str) : option yamd :=
  match strict_run source l [FYamd None []] with
  | Some [FYamd m b] => Some (yamd_new m b)
  | _ => None
  end.
