(** Theorems about the document a stream stands for (src/op/to_yamd.rs; property C44).  The meaning of
    a stream is the grammar of Meaning.v. *)
From Coq Require Import String.
From Verif Require Import Base Lexer Ops Parser StreamSpec Ast AstSpec ToYamd Api Meaning MeaningProofs HandBuilt.

(** Every stream that stands for a document, also one made by hand, is turned into that document. *)
Theorem C44_to_yamd : forall source ops es y, reads source ops es -> means es y -> to_yamd ops source = Ok y.
Proof. exact means_to_yamd. Qed.
Print Assumptions C44_to_yamd.

(** The constructors [Code::new] and [Yamd::new] trim line feeds. *)
Theorem C22_code_new : forall lang code, exists c, code_new lang code = YCode lang c /\ cut_end code c.
Proof. intros lang code. exists (trim_end c_nl code). split; [reflexivity|apply trim_end_cut]. Qed.
Print Assumptions C22_code_new.
Theorem C22_yamd_new : forall m b, exists m', yamd_new m b = mk_yamd m' b
  /\ match m, m' with Some x, Some y => cut_both x y | None, None => True | _, _ => False end.
Proof. intros [m|] b; eexists; (split; [reflexivity|]); [apply trim_both_cut|exact I]. Qed.
Print Assumptions C22_yamd_new.

(** The stream of [parse] stands for exactly one document, the one of [deserialize]. *)
Theorem C44_parse : forall s ops es, parse s = Ok ops -> reads s ops es ->
  exists y, means es y /\ deserialize s = Ok y /\ forall z, means es z -> z = y.
Proof. exact parse_means_unique. Qed.
Print Assumptions C44_parse.

(** Two streams one after the other stand for the blocks of both. *)
Theorem C44_twice : forall source ops1 es1 y1 ops2 es2 y2, reads source ops1 es1 -> means es1 y1 -> reads source ops2 es2 -> means es2 y2 ->
  metadata y1 = None \/ metadata y2 = None ->
  to_yamd (ops1 ++ ops2) source
  = Ok (mk_yamd (match metadata y2 with Some m => Some m | None => metadata y1 end) (body y1 ++ body y2)).
Proof. exact means_twice. Qed.
Print Assumptions C44_twice.

(** Headings and embeds made by hand, with any text: the level is the number of leading hashes, in a
    [u8]; the kind and the arguments are the first and the third value. *)
Theorem C44_hand_heading : forall source c k r e f, as_str source c = Ok (repeat 35%N k ++ r) -> (forall r', r <> 35%N :: r') ->
  to_yamd [mk_op (Start NDocument) e; mk_op (Start NHeading) c; mk_op (End NHeading) e; mk_op (End NDocument) f] source
  = Ok (mk_yamd None [YHeading (k mod 256) []]).
Proof. exact hand_heading. Qed.
Print Assumptions C44_hand_heading.
Theorem C44_hand_embed : forall source cs ts e f, Forall2 (fun c t => as_str source c = Ok t) cs ts ->
  to_yamd (mk_op (Start NDocument) e :: mk_op (Start NEmbed) e :: map (mk_op Value) cs
           ++ [mk_op (End NEmbed) f; mk_op (End NDocument) f]) source
  = Ok (mk_yamd None [YEmbed (nth 0 ts []) (nth 2 ts [])]).
Proof. exact hand_embed. Qed.
Print Assumptions C44_hand_embed.
Example hand_texts : as_str (s_ "##a# b") (Span 0 6) = Ok (repeat 35%N 2 ++ s_ "a# b") /\ forall r', s_ "a# b" <> 35%N :: r'.
Proof. split; [reflexivity|discriminate]. Qed.

(** ** A stream made by hand: a level-2 heading with a link, and a highlight with an icon whose only
    paragraph ends with line feeds *)

Definition v (x : string) : event := (Value, s_ x).
Definition st (n : node) (x : string) : event := (Start n, s_ x).
Definition en (n : node) : event := (End n, []).
Definition hand : list event :=
  [st NDocument ""; st NHeading "## "; v "a"; st NAnchor ""; st NTitle "["; v "t"; en NTitle; st NDestination "("; v "u"; en NDestination; en NAnchor;
   en NHeading; v "blank"; st NHighlight "!!"; st NIcon "! "; v "i"; en NIcon; st NParagraph ""; v "p

"; en NParagraph; en NHighlight; en NDocument].
Definition hand_doc : yamd :=
  mk_yamd None [YHeading 2 [HText (s_ "a"); HAnchor (s_ "t") (s_ "u")]; YHighlight None (Some (s_ "i")) [[PText (s_ "p")]]].

Example hand_means : means hand hand_doc.
Proof.
  apply (mean_body (firstn 20 (skipn 1 hand))); [|exists [], []; reflexivity].
  apply (km_cons (firstn 11 (skipn 1 hand))).
  { apply (km_heading 2 [] (firstn 9 (skipn 2 hand))); [lia|]. apply (each_cons _ [v "a"]); [constructor|].
    rewrite <- (app_nil_r (firstn 8 (skipn 3 hand))) at 1. constructor; [|constructor].
    apply (hm_anchor _ _ (firstn 6 (skipn 4 hand))); [|exists [], []; reflexivity]. exists (firstn 3 (skipn 4 hand)), (firstn 3 (skipn 7 hand)).
    split; [reflexivity|]. split; [exists [s_ "t"]|exists [s_ "u"]]; (split; [reflexivity|]; eexists; eexists; reflexivity). }
  apply km_blank. rewrite <- (app_nil_r (firstn 8 (skipn 13 hand))) at 1. apply km_cons; [|constructor].
  apply (km_highlight [] None (firstn 3 (skipn 14 hand)) _ (firstn 3 (skipn 17 hand))); [constructor| | |exists (s_ "!!"), []; reflexivity].
  - constructor. exists [s_ "i"]. split; [reflexivity|]. exists (s_ "! "), []. reflexivity.
  - rewrite <- (app_nil_r (firstn 3 (skipn 17 hand))) at 1. constructor; [|constructor]. exists [PText (s_ "p

")]. split.
    + exists [v "p

"]. split; [|exists [], []; reflexivity]. apply (each_cons _ [v "p

"] (PText _) [] []); constructor.
    + apply (cl_text []); [|discriminate]. exists 2. split; [reflexivity|]. intros (y & E). destruct y as [|? [|? ?]]; discriminate.
Qed.
(** The same stream as ops with copied contents. *)
Example hand_document : to_yamd (map (fun e => mk_op (fst e) (Materialized (snd e))) hand) [] = Ok hand_doc.
Proof. vm_compute. reflexivity. Qed.
Example hand_reads : reads [] (map (fun e => mk_op (fst e) (Materialized (snd e))) hand) hand.
Proof. unfold hand. repeat constructor. Qed.

(** A code block and its language in several pieces. *)
Definition pieces : list event :=
  [st NDocument ""; st NCode "```"; st NModifier ""; v "ru"; v "st"; en NModifier; v "a"; v "b
"; en NCode; en NDocument].
Example pieces_mean : means pieces (mk_yamd None [YCode (s_ "rust") (s_ "ab")]).
Proof.
  apply (mean_body (firstn 8 (skipn 1 pieces))); [|exists [], []; reflexivity].
  rewrite <- (app_nil_r (firstn 8 (skipn 1 pieces))). apply km_cons; [|constructor].
  apply (km_code (firstn 4 (skipn 2 pieces)) (Some (s_ "rust")) [s_ "a"; s_ "b
"]).
  - constructor. exists [s_ "ru"; s_ "st"]. split; [reflexivity|]. exists [], []. reflexivity.
  - exists 1. split; [reflexivity|]. intros (y & E). destruct y as [|? [|? [|? ?]]]; discriminate.
  - exists (s_ "```"), []. reflexivity.
Qed.
Example pieces_document : to_yamd (map (fun e => mk_op (fst e) (Materialized (snd e))) pieces) [] = Ok (mk_yamd None [YCode (s_ "rust") (s_ "ab")]).
Proof. vm_compute. reflexivity. Qed.
