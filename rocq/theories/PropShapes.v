(** What the parser looks at: shapes of tokens, not texts (properties C51-C53).  Specification: ShapeSpec.v, WinSpec.v. *)
From Coq Require Import String.
From Verif Require Import Base Lexer LexFacts Ops Parser Ast ToYamd Api ShapeSpec Shapes Swap SwapAst WinSpec Win.

(** ** Shapes of tokens *)

Theorem C51_kinds : forall s s' ts ts' ops ops', lex s = Ok ts -> lex s' = Ok ts' -> Forall2 alike ts ts' ->
  parse s = Ok ops -> parse s' = Ok ops' -> map op_kind_of ops = map op_kind_of ops'.
Proof. exact same_kinds. Qed.
Print Assumptions C51_kinds.

(** The same ranges of tokens, for both sources. *)
Theorem C51_ranges : forall s s' ts ts' ops ops', lex s = Ok ts -> lex s' = Ok ts' -> Forall2 alike ts ts' ->
  parse s = Ok ops -> parse s' = Ok ops' ->
  exists cs, in_order 0 cs (length ts) /\ Forall2 (stands s ts) ops cs /\ Forall2 (stands s' ts') ops' cs.
Proof. exact same_cuts. Qed.
Print Assumptions C51_ranges.

(** ** Line endings *)

(** The op stream of the source with Windows line endings. *)
Theorem C52_ops : forall s ops ops', unix s -> parse s = Ok ops -> parse (crlf s) = Ok ops' ->
  Forall2 (fun o o' => op_kind_of o = op_kind_of o'
             /\ exists x, as_str s (op_content o) = Ok x /\ as_str (crlf s) (op_content o') = Ok (crlf x)) ops ops'.
Proof. exact crlf_ops. Qed.
Print Assumptions C52_ops.

(** Documents are another matter: only line feeds are trimmed. *)
Theorem C52_document_refuted : exists s y, unix s /\ deserialize s = Ok y /\ deserialize (crlf s) <> Ok (reword_yamd (fun c => if char_eqb c c_nl then [c_cr; c_nl] else [c]) y).
Proof.
  exists (s_ "```x" ++ nl ++ s_ "a" ++ nl ++ s_ "```"), (mk_yamd None [YCode (s_ "x") (s_ "a")]). split; [|split; [vm_compute; reflexivity|vm_compute; discriminate]].
  split; [intros H; vm_compute in H; repeat (destruct H as [H|H]; [discriminate H|]); exact H|].
  intros a b E. do 10 (destruct a as [|? a]; [try reflexivity; discriminate E|injection E as <- E]). destruct a; discriminate E.
Qed.
Print Assumptions C52_document_refuted.

(** Carriage returns are left behind exactly there: without them the document is that of the source, line feeds replaced. *)
Theorem C52_document : forall s y y', unix s -> deserialize s = Ok y -> deserialize (crlf s) = Ok y' ->
  strip_yamd y' = reword_yamd (fun c => if char_eqb c c_nl then [c_cr; c_nl] else [c]) y.
Proof. exact win_document. Qed.
Print Assumptions C52_document.

(** What is stripped: the line endings that would have been trimmed, but for the last line feed. *)
Theorem C52_strip : forall x x', strip_end x' = crlf x -> x' = crlf x \/ exists k, x' = (crlf (x ++ repeat c_nl k) ++ [c_cr])%list.
Proof. exact strip_shape. Qed.
Print Assumptions C52_strip.

(** ** Ordinary text *)

Theorem C53_ops : forall g s ops ops', rewording g -> same_lines g -> parse s = Ok ops -> parse (reword g s) = Ok ops' ->
  Forall2 (fun o o' => op_kind_of o = op_kind_of o'
             /\ exists x, as_str s (op_content o) = Ok x /\ as_str (reword g s) (op_content o') = Ok (reword g x)) ops ops'.
Proof. intros g s ops ops' R L. exact (swap_ops g R s ops ops' (or_introl L)). Qed.
Print Assumptions C53_ops.

Theorem C53_document : forall g s y, rewording g -> same_lines g -> deserialize s = Ok y -> deserialize (reword g s) = Ok (reword_yamd g y).
Proof. intros g s y R L. exact (swap_document g R L s y). Qed.
Print Assumptions C53_document.

(** For every document, whether it comes from a source or not. *)
Theorem C53_display : forall g y, rewording g -> same_lines g -> display_yamd (reword_yamd g y) = reword g (display_yamd y).
Proof. intros g y R L. exact (swap_display g R L y). Qed.
Print Assumptions C53_display.

(** ** Examples *)

Definition in_lines (l : list str) : str := flat_map (fun x => x ++ nl) l.
Definition src1 : str := in_lines
  [ s_ "---"; s_ "k: v"; s_ "---"; s_ ""; s_ "# ab"; s_ ""; s_ "ab **b _c_** [t](u) \_"; s_ "ab"; s_ ""; s_ "- a"; s_ " + b"; s_ ""; s_ "{% t"; s_ "a"; s_ "%}" ].
(** [a] becomes the word [xyz], [b] the two-byte character U+00E9. *)
Definition g1 (c : char) : str := if (c =? 97)%N then s_ "xyz" else if (c =? 98)%N then [233%N] else [c].
Example g1_rewording : rewording g1.
Proof.
  intros c _. unfold g1. destruct (c =? 97)%N eqn:A; [apply N.eqb_eq in A; subst c; split; [discriminate|repeat constructor]|].
  destruct (c =? 98)%N eqn:B; [apply N.eqb_eq in B; subst c; split; [discriminate|repeat constructor]|].
  destruct (syntax c) eqn:S; [reflexivity|]. split; [discriminate|]. constructor; [exact S|constructor].
Qed.
Example g1_source : reword g1 src1 <> src1 /\ exists y, deserialize src1 = Ok y /\ deserialize (reword g1 src1) = Ok (reword_yamd g1 y) /\ reword_yamd g1 y <> y /\ length (body y) = 4.
Proof. split; [vm_compute; discriminate|]. eexists. split; [vm_compute; reflexivity|]. split; [vm_compute; reflexivity|]. split; [vm_compute; discriminate|reflexivity]. Qed.
Example g1_alike : exists ts ts', lex src1 = Ok ts /\ lex (reword g1 src1) = Ok ts' /\ ts <> ts' /\ Forall2 alike ts ts' /\ length ts = 46.
Proof.
  eexists _, _. split; [vm_compute; reflexivity|]. split; [vm_compute; reflexivity|]. split; [discriminate|]. split; [|reflexivity].
  repeat (constructor; [repeat split; try reflexivity; discriminate|]). constructor.
Qed.

(** A file with metadata, a list, code and a highlight, written on Windows. *)
Definition src2 : str := in_lines
  [ s_ "---"; s_ "k: v"; s_ "---"; s_ ""; s_ "- a"; s_ "- *b*"; s_ " - c"; s_ ""; s_ "```x"; s_ "y"; s_ ""; s_ "```"; s_ "!! t"; s_ "d"; s_ ""; s_ "e"; s_ "!!" ].
Definition cr : str := [c_cr].
Example src2_windows : unix src2 /\ exists y, deserialize src2 = Ok y
  /\ deserialize (crlf src2) = Ok (mk_yamd (Some (cr ++ nl ++ s_ "k: v" ++ cr))
       [ YListNode (YList LUnordered 0 [YItem [PText (s_ "a" ++ cr)] None; YItem [PEmphasis (s_ "b"); PText cr] (Some (YList LUnordered 1 [YItem [PText (s_ "c")] None]))]);
         YCode (s_ "x") (s_ "y" ++ cr ++ nl ++ cr); YHighlight (Some (s_ "t")) None [[PText (s_ "d")]; [PText (s_ "e" ++ cr)]] ])
  /\ body y = [ YListNode (YList LUnordered 0 [YItem [PText (s_ "a")] None; YItem [PEmphasis (s_ "b")] (Some (YList LUnordered 1 [YItem [PText (s_ "c")] None]))]);
                YCode (s_ "x") (s_ "y"); YHighlight (Some (s_ "t")) None [[PText (s_ "d")]; [PText (s_ "e")]] ].
Proof.
  split; [split; [intros H; vm_compute in H; repeat (destruct H as [H|H]; [discriminate H|]); exact H|]|].
  - intros a b E. assert (X : forall x, ~ In c_bslash x -> dangling x = false).
    { fix IH 1. intros [|c x] H; [reflexivity|]. cbn [dangling]. destruct (char_eqb c c_bslash) eqn:B; [apply N.eqb_eq in B; exfalso; apply H; left; exact B|]. apply IH. intros X. apply H. right. exact X. }
    apply X. intros Ha. assert (Hs : In c_bslash src2) by (rewrite E; apply in_or_app; left; exact Ha). vm_compute in Hs. repeat (destruct Hs as [Hs|Hs]; [discriminate Hs|]). exact Hs.
  - eexists. split; [vm_compute; reflexivity|]. split; vm_compute; reflexivity.
Qed.

(** An escaped line feed makes a difference. *)
Example escaped_lf : exists s ops ops', ~ In c_cr s /\ parse s = Ok ops /\ parse (crlf s) = Ok ops' /\ map op_kind_of ops <> map op_kind_of ops'.
Proof.
  exists (s_ "# a" ++ [c_bslash; c_nl; c_nl] ++ s_ "b"). do 2 eexists. split; [intros H; vm_compute in H; repeat (destruct H as [H|H]; [discriminate H|]); exact H|].
  split; [vm_compute; reflexivity|]. split; [vm_compute; reflexivity|vm_compute; discriminate].
Qed.
(** So does a carriage return that is there already. *)
Example lone_cr : exists s ops ops', In c_cr s /\ parse s = Ok ops /\ parse (crlf s) = Ok ops' /\ map op_kind_of ops <> map op_kind_of ops'.
Proof.
  exists (s_ "a" ++ [c_nl; c_cr; c_nl] ++ s_ "b"). do 2 eexists. split; [vm_compute; tauto|]. split; [vm_compute; reflexivity|]. split; [vm_compute; reflexivity|vm_compute; discriminate].
Qed.
(** Neither may a percent sign change. *)
Example percent_matters : exists ops ops', parse (s_ "{%" ++ nl ++ s_ "a" ++ nl ++ s_ "%}") = Ok ops /\ parse (s_ "{x" ++ nl ++ s_ "a" ++ nl ++ s_ "x}") = Ok ops' /\ map op_kind_of ops <> map op_kind_of ops'.
Proof. do 2 eexists. split; [vm_compute; reflexivity|]. split; [vm_compute; reflexivity|vm_compute; discriminate]. Qed.
