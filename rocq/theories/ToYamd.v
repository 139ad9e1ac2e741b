(** Model of src/op/to_yamd.rs. *)
From Verif Require Import Base Lexer Ops Ast.

(** src/op/to_yamd.rs 21-106: [Frame]. *)
Inductive frame :=
| FYamd (metadata : option str) (body : list ynode)
| FDocument (children : list ynode)
| FHeading (level : nat) (body : list head_node)
| FParagraph (body : list par_node)
| FBold (body : list bold_node)
| FItalic (text : str)
| FStrikethrough (text : str)
| FCodeSpan (text : str)
| FEmphasis (text : str)
| FAnchor (text url : str)
| FTitle (text : str)
| FDestination (text : str)
| FImage (alt src : str)
| FImages (images : list image_node)
| FCode (lang code : str)
| FModifier (text : str)
| FEmbed (values : list str)
| FThematicBreak
| FHighlight (title icon : option str) (paragraphs : list (list par_node))
| FIcon (text : str)
| FCollapsible (title : str) (body : list ynode)
| FUnorderedList (level : nat) (items : list yitem)
| FOrderedList (level : nat) (items : list yitem)
| FListItem (text : list par_node) (nested_list : option ylist)
| FMetadata (text : str).

(** src/op/to_yamd.rs 108-177: [Frame::from_node]; the last arm is [unreachable!]. *)
Definition from_node (n : node) : outcome frame :=
  match n with
  | NDocument => Ok (FDocument [])
  | NParagraph => Ok (FParagraph [])
  | NBold => Ok (FBold [])
  | NItalic => Ok (FItalic [])
  | NStrikethrough => Ok (FStrikethrough [])
  | NCodeSpan => Ok (FCodeSpan [])
  | NEmphasis => Ok (FEmphasis [])
  | NAnchor => Ok (FAnchor [] [])
  | NTitle => Ok (FTitle [])
  | NDestination => Ok (FDestination [])
  | NImage => Ok (FImage [] [])
  | NImages => Ok (FImages [])
  | NCode => Ok (FCode [] [])
  | NModifier => Ok (FModifier [])
  | NEmbed => Ok (FEmbed [])
  | NThematicBreak => Ok FThematicBreak
  | NHighlight => Ok (FHighlight None None [])
  | NIcon => Ok (FIcon [])
  | NCollapsible => Ok (FCollapsible [] [])
  | NListItem => Ok (FListItem [] None)
  | NMetadata => Ok (FMetadata [])
  | NHeading | NUnorderedList | NOrderedList => Panic
  end.

(** The Rust stack as a list with the top first. *)
Definition stack := list frame.

(** src/op/to_yamd.rs 179-184: [count_list_depth]. *)
Definition is_list_frame (f : frame) : bool :=
  match f with FUnorderedList _ _ | FOrderedList _ _ => true | _ => false end.
Definition count_list_depth (s : stack) : nat := length (filter is_list_frame s).

(** src/op/to_yamd.rs 447-450: [extract_heading_level]; [as u8] wraps. *)
Fixpoint count_hashes (s : str) : nat :=
  match s with
  | [] => 0
  | c :: s' => if char_eqb c c_hash then S (count_hashes s') else 0
  end.
Definition as_u8 (n : nat) : nat := N.to_nat (N.of_nat n mod 256)%N.
Definition extract_heading_level (c : content) (source : str) : outcome nat :=
  let! s := as_str source c in Ok (as_u8 (count_hashes s)).

(** src/op/to_yamd.rs 452-461: [trim_trailing_newline_from_text]. *)
Definition trim_trailing_newline_from_text (body : list par_node) : list par_node :=
  match rev body with
  | PText t :: r =>
      match trim_end c_nl t with
      | [] => rev r
      | t' => rev (PText t' :: r)
      end
  | _ => body
  end.

(** src/op/to_yamd.rs 463-467: [push_yamd_node]. *)
Definition push_yamd_node (s : stack) (n : ynode) : stack :=
  match s with
  | FDocument ch :: r => FDocument (ch ++ [n]) :: r
  | _ => s
  end.

(** src/op/to_yamd.rs 469-473: [push_into_paragraph]. *)
Definition push_into_paragraph (s : stack) (n : par_node) : stack :=
  match s with
  | FParagraph b :: r => FParagraph (b ++ [n]) :: r
  | _ => s
  end.

(** Result of one step: [None] is [Err(UnbalancedOpStream)]. *)
Definition step_result := outcome (option stack).
Definition err : step_result := Ok None.
Definition ok (s : stack) : step_result := Ok (Some s).

(** src/op/to_yamd.rs 475-481: [finish_list]. *)
Definition finish_list (s : stack) (l : ylist) : step_result :=
  match s with
  | [] => err
  | FListItem t _ :: r => ok (FListItem t (Some l) :: r)
  | _ => ok (push_yamd_node s (YListNode l))
  end.

(** src/op/to_yamd.rs 215-238: [OpKind::Start]. *)
Definition step_start (source : str) (n : node) (c : content) (s : stack) : step_result :=
  match n with
  | NHeading => let! level := extract_heading_level c source in ok (FHeading level [] :: s)
  | NUnorderedList => ok (FUnorderedList (count_list_depth s) [] :: s)
  | NOrderedList => ok (FOrderedList (count_list_depth s) [] :: s)
  | _ => let! f := from_node n in ok (f :: s)
  end.

(** src/op/to_yamd.rs 239-268: [OpKind::Value]; the text is sliced before the stack is looked
    at. *)
Definition step_value (source : str) (c : content) (s : stack) : step_result :=
  let! text := as_str source c in
  match s with
  | [] => err
  | top :: r =>
      ok match top with
         | FHeading l b => FHeading l (b ++ [HText text]) :: r
         | FParagraph b => FParagraph (b ++ [PText text]) :: r
         | FBold b => FBold (b ++ [BText text]) :: r
         | FItalic t => FItalic (t ++ text) :: r
         | FStrikethrough t => FStrikethrough (t ++ text) :: r
         | FCodeSpan t => FCodeSpan (t ++ text) :: r
         | FEmphasis t => FEmphasis (t ++ text) :: r
         | FTitle t => FTitle (t ++ text) :: r
         | FDestination t => FDestination (t ++ text) :: r
         | FModifier t => FModifier (t ++ text) :: r
         | FIcon t => FIcon (t ++ text) :: r
         | FCode l t => FCode l (t ++ text) :: r
         | FEmbed vs => FEmbed (vs ++ [text]) :: r
         | FMetadata t => FMetadata (t ++ text) :: r
         | FThematicBreak => s
         | FHighlight _ _ _ | FDocument _ => s
         | _ => s
         end
  end.

(** [values.get(i).cloned().unwrap_or_default()] (to_yamd.rs 398-399). *)
Definition value_at (i : nat) (vs : list str) : str := nth i vs [].

(** src/op/to_yamd.rs 269-436: [OpKind::End]. [s] is the stack after the pop of [f]. *)
Definition step_end_frame (n : node) (f : frame) (s : stack) : step_result :=
  match n, f with
  | NDocument, FDocument children =>
      match s with
      | [] => err
      | FCollapsible t _ :: r => ok (FCollapsible t children :: r)
      | FYamd m b :: r => ok (FYamd m (b ++ children) :: r)
      | _ => ok s
      end
  | NMetadata, FMetadata text =>
      match s with
      | FYamd _ b :: r => ok (FYamd (Some (trim_both c_nl text)) b :: r)
      | _ => ok s
      end
  | NHeading, FHeading level b => ok (push_yamd_node s (YHeading level b))
  | NParagraph, FParagraph b =>
      match s with
      | [] => err
      | FHighlight t i ps :: r =>
          ok (FHighlight t i (ps ++ [trim_trailing_newline_from_text b]) :: r)
      | FListItem _ nested :: r =>
          ok (FListItem (trim_trailing_newline_from_text b) nested :: r)
      | FDocument ch :: r => ok (FDocument (ch ++ [YParagraph b]) :: r)
      | _ => ok s
      end
  | NBold, FBold b => ok (push_into_paragraph s (PBold b))
  | NItalic, FItalic t =>
      match s with
      | [] => err
      | FParagraph b :: r => ok (FParagraph (b ++ [PItalic t]) :: r)
      | FBold b :: r => ok (FBold (b ++ [BItalic t]) :: r)
      | _ => ok s
      end
  | NStrikethrough, FStrikethrough t =>
      match s with
      | [] => err
      | FParagraph b :: r => ok (FParagraph (b ++ [PStrike t]) :: r)
      | FBold b :: r => ok (FBold (b ++ [BStrike t]) :: r)
      | _ => ok s
      end
  | NCodeSpan, FCodeSpan t => ok (push_into_paragraph s (PCodeSpan t))
  | NEmphasis, FEmphasis t => ok (push_into_paragraph s (PEmphasis t))
  | NTitle, FTitle t =>
      match s with
      | [] => err
      | FAnchor _ u :: r => ok (FAnchor t u :: r)
      | FImage _ sr :: r => ok (FImage t sr :: r)
      | _ => ok s
      end
  | NDestination, FDestination t =>
      match s with
      | [] => err
      | FAnchor tx _ :: r => ok (FAnchor tx t :: r)
      | FImage al _ :: r => ok (FImage al t :: r)
      | _ => ok s
      end
  | NAnchor, FAnchor t u =>
      match s with
      | [] => err
      | FParagraph b :: r => ok (FParagraph (b ++ [PAnchor t u]) :: r)
      | FHeading l b :: r => ok (FHeading l (b ++ [HAnchor t u]) :: r)
      | _ => ok s
      end
  | NImage, FImage al sr =>
      match s with
      | [] => err
      | FImages l :: r => ok (FImages (l ++ [mk_image al sr]) :: r)
      | _ => ok (push_yamd_node s (YImage (mk_image al sr)))
      end
  | NImages, FImages l => ok (push_yamd_node s (YImages l))
  | NCode, FCode lang code => ok (push_yamd_node s (code_new lang (trim_end c_nl code)))
  | NModifier, FModifier t =>
      match s with
      | [] => err
      | FCode _ c :: r => ok (FCode t c :: r)
      | FHighlight _ i ps :: r => ok (FHighlight (Some t) i ps :: r)
      | FCollapsible _ b :: r => ok (FCollapsible t b :: r)
      | _ => ok s
      end
  | NIcon, FIcon t =>
      match s with
      | FHighlight ti _ ps :: r => ok (FHighlight ti (Some t) ps :: r)
      | _ => ok s
      end
  | NEmbed, FEmbed vs => ok (push_yamd_node s (YEmbed (value_at 0 vs) (value_at 2 vs)))
  | NThematicBreak, FThematicBreak => ok (push_yamd_node s YThematicBreak)
  | NHighlight, FHighlight t i ps => ok (push_yamd_node s (YHighlight t i ps))
  | NCollapsible, FCollapsible t b => ok (push_yamd_node s (YCollapsible t b))
  | NUnorderedList, FUnorderedList level items => finish_list s (YList LUnordered level items)
  | NOrderedList, FOrderedList level items => finish_list s (YList LOrdered level items)
  | NListItem, FListItem t nested =>
      match s with
      | FUnorderedList l items :: r => ok (FUnorderedList l (items ++ [YItem t nested]) :: r)
      | FOrderedList l items :: r => ok (FOrderedList l (items ++ [YItem t nested]) :: r)
      | _ => ok s
      end
  | _, _ => ok s
  end.

(** src/op/to_yamd.rs 269-270: the pop. *)
Definition step_end (n : node) (s : stack) : step_result :=
  match s with
  | [] => err
  | f :: r => step_end_frame n f r
  end.

(** src/op/to_yamd.rs 213-438: one turn of the loop. *)
Definition step (source : str) (o : op) (s : stack) : step_result :=
  match op_kind_of o with
  | Start n => step_start source n (op_content o) s
  | Value => step_value source (op_content o) s
  | End n => step_end n s
  end.

Fixpoint run (source : str) (l : list op) (s : stack) : step_result :=
  match l with
  | [] => ok s
  | o :: l' =>
      let! r := step source o s in
      match r with
      | None => err
      | Some s' => run source l' s'
      end
  end.

(** src/op/to_yamd.rs 207-445: [try_to_yamd]; [None] is [Err(UnbalancedOpStream)]. *)
Definition try_to_yamd (l : list op) (source : str) : outcome (option yamd) :=
  let! r := run source l [FYamd None []] in
  match r with
  | None => Ok None
  | Some [] => Ok None
  | Some (FYamd m b :: _) => Ok (Some (yamd_new m b))
  | Some (_ :: _) => Ok None
  end.

(** src/op/to_yamd.rs 202-204: [to_yamd]; [expect] panics on [Err]. *)
Definition to_yamd (l : list op) (source : str) : outcome yamd :=
  let! r := try_to_yamd l source in
  match r with
  | Some y => Ok y
  | None => Panic
  end.
