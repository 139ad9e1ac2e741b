(** Model of the [serde] feature: the derives on src/nodes/*.rs, read for a self-describing format
    with strings, numbers, null, sequences and maps (JSON).  The derived code is generated by the
    serde crate; the model follows its documented behaviour: structs are maps of their fields,
    newtype structs are their content, an enum with [tag = "type", content = "value"] is a map with
    the name of the variant under "type" and its content under "value", and [None] is null.  When
    reading, fields may come in any order, unknown fields are skipped, a field given twice is an
    error, and so is a missing one unless it is an [Option]; a struct may also be a sequence of its
    fields in order. *)
From Coq Require Import String.
From Verif Require Import Base Ast.
Open Scope list_scope.

Inductive value :=
| VNull
| VStr (s : str)
| VNum (n : nat)
| VList (l : list value)
| VMap (es : list (str * value)).

(** ** Serialize *)

Definition ser_opt (o : option str) : value := match o with Some x => VStr x | None => VNull end.
Definition tagged (t : str) (v : value) : value := VMap [(s_ "type", VStr t); (s_ "value", v)].

(** src/nodes/anchor.rs 36-40. *)
Definition ser_anchor (text url : str) : value := VMap [(s_ "text", VStr text); (s_ "url", VStr url)].
(** src/nodes/bold.rs 9-15, italic.rs 32-33, strikethrough.rs 33-34. *)
Definition ser_bold (b : bold_node) : value :=
  match b with
  | BItalic x => tagged (s_ "Italic") (VStr x)
  | BStrike x => tagged (s_ "Strikethrough") (VStr x)
  | BText x => tagged (s_ "Text") (VStr x)
  end.
(** src/nodes/paragraph.rs 9-19, bold.rs 94-97, code_span.rs 33-34, emphasis.rs 33-34. *)
Definition ser_par (p : par_node) : value :=
  match p with
  | PAnchor t u => tagged (s_ "Anchor") (ser_anchor t u)
  | PBold l => tagged (s_ "Bold") (VMap [(s_ "body", VList (map ser_bold l))])
  | PItalic x => tagged (s_ "Italic") (VStr x)
  | PStrike x => tagged (s_ "Strikethrough") (VStr x)
  | PText x => tagged (s_ "Text") (VStr x)
  | PCodeSpan x => tagged (s_ "CodeSpan") (VStr x)
  | PEmphasis x => tagged (s_ "Emphasis") (VStr x)
  end.
(** src/nodes/paragraph.rs 130-133. *)
Definition ser_paragraph (l : list par_node) : value := VMap [(s_ "body", VList (map ser_par l))].
(** src/nodes/heading.rs 9-14. *)
Definition ser_head (h : head_node) : value :=
  match h with
  | HText x => tagged (s_ "Text") (VStr x)
  | HAnchor t u => tagged (s_ "Anchor") (ser_anchor t u)
  end.
(** src/nodes/image.rs 37-41. *)
Definition ser_image (i : image_node) : value := VMap [(s_ "alt", VStr (alt i)); (s_ "src", VStr (src i))].
(** src/nodes/list.rs 9-17: unit variants are their names. *)
Definition ser_list_type (ty : list_type) : value :=
  VStr (match ty with LUnordered => s_ "Unordered" | LOrdered => s_ "Ordered" end).
(** src/nodes/list.rs 136-141, list_item.rs 30-34. *)
Fixpoint ser_list (l : ylist) : value :=
  match l with
  | YList ty level items =>
      VMap [(s_ "list_type", ser_list_type ty); (s_ "level", VNum level); (s_ "body", VList (map ser_item items))]
  end
with ser_item (it : yitem) : value :=
  match it with
  | YItem text nested =>
      VMap [(s_ "text", VList (map ser_par text));
            (s_ "nested_list", match nested with Some l => ser_list l | None => VNull end)]
  end.
(** src/nodes/yamd.rs 12-25, heading.rs 70-74, images.rs 39-42, code.rs 32-36, highlight.rs 54-59,
    thematic_break.rs 21-22, embed.rs 28-32, collapsible.rs 39-43. *)
Fixpoint ser_node (y : ynode) : value :=
  match y with
  | YParagraph l => tagged (s_ "Paragraph") (ser_paragraph l)
  | YHeading level l => tagged (s_ "Heading") (VMap [(s_ "level", VNum level); (s_ "body", VList (map ser_head l))])
  | YImage i => tagged (s_ "Image") (ser_image i)
  | YImages l => tagged (s_ "Images") (VMap [(s_ "body", VList (map ser_image l))])
  | YCode lang code => tagged (s_ "Code") (VMap [(s_ "lang", VStr lang); (s_ "code", VStr code)])
  | YListNode l => tagged (s_ "List") (ser_list l)
  | YHighlight t i b =>
      tagged (s_ "Highlight")
        (VMap [(s_ "title", ser_opt t); (s_ "icon", ser_opt i); (s_ "body", VList (map ser_paragraph b))])
  | YThematicBreak => tagged (s_ "ThematicBreak") (VMap [])
  | YEmbed k a => tagged (s_ "Embed") (VMap [(s_ "kind", VStr k); (s_ "args", VStr a)])
  | YCollapsible t b => tagged (s_ "Collapsible") (VMap [(s_ "title", VStr t); (s_ "body", VList (map ser_node b))])
  end.
(** src/nodes/yamd.rs 253-257. *)
Definition ser_yamd (y : yamd) : value :=
  VMap [(s_ "metadata", ser_opt (metadata y)); (s_ "body", VList (map ser_node (body y)))].

(** ** Deserialize *)

(** [Ok None] is an error of the deserializer. *)
Definition res (A : Type) := outcome (option A).
Definition ret {A} (a : A) : res A := Ok (Some a).
Definition fail {A} : res A := Ok None.
Definition rbind {A B} (m : res A) (f : A -> res B) : res B :=
  match m with
  | Ok (Some a) => f a
  | Ok None => Ok None
  | Panic => Panic
  | OutOfFuel => OutOfFuel
  end.
Notation "'let?' x ':=' m 'in' k" := (rbind m (fun x => k))
  (at level 200, x pattern, m at level 100, k at level 200, right associativity).

Fixpoint all {A} (f : value -> res A) (vs : list value) : res (list A) :=
  match vs with
  | [] => ret []
  | v :: vs' => let? a := f v in let? l := all f vs' in ret (a :: l)
  end.

(** One field of a map: skipped keys are ignored, a second one is an error. *)
Definition field (k : str) (es : list (str * value)) : res (option value) :=
  match filter (fun e => str_eqb (fst e) k) es with
  | [] => ret None
  | [(_, v)] => ret (Some v)
  | _ => fail
  end.
Fixpoint fields (names : list str) (es : list (str * value)) : res (list (option value)) :=
  match names with
  | [] => ret []
  | k :: names' => let? o := field k es in let? l := fields names' es in ret (o :: l)
  end.
Definition struct_of (names : list str) (v : value) : res (list (option value)) :=
  match v with
  | VMap es => fields names es
  | VList vs => if length vs =? length names then ret (map Some vs) else fail
  | _ => fail
  end.

Definition de_string (o : option value) : res str :=
  match o with Some (VStr x) => ret x | _ => fail end.
Definition de_opt_string (o : option value) : res (option str) :=
  match o with
  | None | Some VNull => ret None
  | Some (VStr x) => ret (Some x)
  | _ => fail
  end.
Definition de_u8 (o : option value) : res nat :=
  match o with Some (VNum n) => if n <=? 255 then ret n else fail | _ => fail end.
Definition de_usize (o : option value) : res nat :=
  match o with Some (VNum n) => ret n | _ => fail end.
Definition de_vec {A} (f : value -> res A) (o : option value) : res (list A) :=
  match o with Some (VList vs) => all f vs | _ => fail end.

(** An enum with [tag = "type", content = "value"]: the name of the variant and its content. *)
Definition de_tagged (v : value) : res (str * value) :=
  let? l := struct_of [s_ "type"; s_ "value"] v in
  match l with
  | [Some (VStr t); Some c] => ret (t, c)
  | _ => fail
  end.

Definition de_anchor (v : value) : res (str * str) :=
  let? l := struct_of [s_ "text"; s_ "url"] v in
  match l with
  | [t; u] => let? t := de_string t in let? u := de_string u in ret (t, u)
  | _ => fail
  end.
Definition de_bold (v : value) : res bold_node :=
  let? (t, c) := de_tagged v in
  if str_eqb t (s_ "Italic") then let? x := de_string (Some c) in ret (BItalic x)
  else if str_eqb t (s_ "Strikethrough") then let? x := de_string (Some c) in ret (BStrike x)
  else if str_eqb t (s_ "Text") then let? x := de_string (Some c) in ret (BText x)
  else fail.
(** A struct with the single field [body]. *)
Definition de_body {A} (f : value -> res A) (v : value) : res (list A) :=
  let? l := struct_of [s_ "body"] v in
  match l with [b] => de_vec f b | _ => fail end.
Definition de_par (v : value) : res par_node :=
  let? (t, c) := de_tagged v in
  if str_eqb t (s_ "Anchor") then let? (x, u) := de_anchor c in ret (PAnchor x u)
  else if str_eqb t (s_ "Bold") then let? l := de_body de_bold c in ret (PBold l)
  else if str_eqb t (s_ "Italic") then let? x := de_string (Some c) in ret (PItalic x)
  else if str_eqb t (s_ "Strikethrough") then let? x := de_string (Some c) in ret (PStrike x)
  else if str_eqb t (s_ "Text") then let? x := de_string (Some c) in ret (PText x)
  else if str_eqb t (s_ "CodeSpan") then let? x := de_string (Some c) in ret (PCodeSpan x)
  else if str_eqb t (s_ "Emphasis") then let? x := de_string (Some c) in ret (PEmphasis x)
  else fail.
Definition de_head (v : value) : res head_node :=
  let? (t, c) := de_tagged v in
  if str_eqb t (s_ "Text") then let? x := de_string (Some c) in ret (HText x)
  else if str_eqb t (s_ "Anchor") then let? (x, u) := de_anchor c in ret (HAnchor x u)
  else fail.
Definition de_image (v : value) : res image_node :=
  let? l := struct_of [s_ "alt"; s_ "src"] v in
  match l with
  | [a; b] => let? a := de_string a in let? b := de_string b in ret (mk_image a b)
  | _ => fail
  end.
(** A unit variant is its name, or a map with the name as the only key and null. *)
Definition de_list_type (o : option value) : res list_type :=
  match o with
  | Some (VStr t) | Some (VMap [(t, VNull)]) =>
      if str_eqb t (s_ "Unordered") then ret LUnordered
      else if str_eqb t (s_ "Ordered") then ret LOrdered
      else fail
  | _ => fail
  end.

(** Lists and list items; every call goes at least one map down. *)
Fixpoint de_list (fuel : nat) (v : value) : res ylist :=
  match fuel with
  | 0 => OutOfFuel
  | S fuel' =>
      let? l := struct_of [s_ "list_type"; s_ "level"; s_ "body"] v in
      match l with
      | [ty; level; items] =>
          let? ty := de_list_type ty in
          let? level := de_usize level in
          let? items := de_vec (de_item fuel') items in
          ret (YList ty level items)
      | _ => fail
      end
  end
with de_item (fuel : nat) (v : value) : res yitem :=
  match fuel with
  | 0 => OutOfFuel
  | S fuel' =>
      let? l := struct_of [s_ "text"; s_ "nested_list"] v in
      match l with
      | [text; nested] =>
          let? text := de_vec de_par text in
          match nested with
          | None | Some VNull => ret (YItem text None)
          | Some w => let? l := de_list fuel' w in ret (YItem text (Some l))
          end
      | _ => fail
      end
  end.

Fixpoint de_node (fuel : nat) (v : value) : res ynode :=
  match fuel with
  | 0 => OutOfFuel
  | S fuel' =>
      let? (t, c) := de_tagged v in
      if str_eqb t (s_ "Paragraph") then let? l := de_body de_par c in ret (YParagraph l)
      else if str_eqb t (s_ "Heading") then
        let? l := struct_of [s_ "level"; s_ "body"] c in
        match l with
        | [level; b] => let? level := de_u8 level in let? b := de_vec de_head b in ret (YHeading level b)
        | _ => fail
        end
      else if str_eqb t (s_ "Image") then let? i := de_image c in ret (YImage i)
      else if str_eqb t (s_ "Images") then let? l := de_body de_image c in ret (YImages l)
      else if str_eqb t (s_ "Code") then
        let? l := struct_of [s_ "lang"; s_ "code"] c in
        match l with
        | [lang; code] => let? lang := de_string lang in let? code := de_string code in ret (YCode lang code)
        | _ => fail
        end
      else if str_eqb t (s_ "List") then let? l := de_list fuel' c in ret (YListNode l)
      else if str_eqb t (s_ "Highlight") then
        let? l := struct_of [s_ "title"; s_ "icon"; s_ "body"] c in
        match l with
        | [ti; ic; b] =>
            let? ti := de_opt_string ti in
            let? ic := de_opt_string ic in
            let? b := de_vec (de_body de_par) b in
            ret (YHighlight ti ic b)
        | _ => fail
        end
      else if str_eqb t (s_ "ThematicBreak") then let? _ := struct_of [] c in ret YThematicBreak
      else if str_eqb t (s_ "Embed") then
        let? l := struct_of [s_ "kind"; s_ "args"] c in
        match l with
        | [k; a] => let? k := de_string k in let? a := de_string a in ret (YEmbed k a)
        | _ => fail
        end
      else if str_eqb t (s_ "Collapsible") then
        let? l := struct_of [s_ "title"; s_ "body"] c in
        match l with
        | [ti; b] => let? ti := de_string ti in let? b := de_vec (de_node fuel') b in ret (YCollapsible ti b)
        | _ => fail
        end
      else fail
  end.

(** The nesting of a value: enough fuel. *)
Fixpoint depth (v : value) : nat :=
  match v with
  | VList l => S (list_max (map depth l))
  | VMap es => S (list_max (map (fun e => depth (snd e)) es))
  | _ => 0
  end.

Definition de_yamd (v : value) : res yamd :=
  let? l := struct_of [s_ "metadata"; s_ "body"] v in
  match l with
  | [m; b] =>
      let? m := de_opt_string m in
      let? b := de_vec (de_node (S (depth v))) b in
      ret (mk_yamd m b)
  | _ => fail
  end.
