(** Blocks that are tame except for what [settled_block] asks.  The documents of sources without
    backslashes and carriage returns have only such blocks (RawAst.v). *)
From Verif Require Import Base Ops StreamSpec Ast AstSpec Tame Settled.

Definition mild_highlight (coll : bool) (title icon : option str) (ps : list (list par_node)) : Prop :=
  tame_line_opt title /\ tame_line_opt icon /\ Forall (fun q => q = [] \/ tame_hpar coll q) ps.

Fixpoint mild_block (coll : bool) (y : ynode) : Prop :=
  match y with
  | YParagraph l => l <> [] /\ tame_inlines coll l
  | YCode lang code => ~ In c_cr lang /\ ~ In c_cr code /\ ~ ends_with_nl code
  | YHighlight t i ps => mild_highlight coll t i ps
  | YCollapsible title b => tame_line title /\ fold_right and True (map (mild_block true) b) /\ Forall (fun m => ~ block_ends_nl m) b
  | y => tame_block coll y
  end.

(** The paragraphs of highlights start with at most one line feed. *)
Fixpoint single_block (y : ynode) : Prop :=
  match y with
  | YHighlight _ _ ps => Forall (fun q => leading c_nl (first_text q) <= 1) ps
  | YCollapsible _ b => fold_right and True (map single_block b)
  | _ => True
  end.

Lemma tame_mild : forall y coll, tame_block coll y -> mild_block coll y.
Proof.
  fix IH 1. intros y coll T. destruct y as [l|k l|i|l|lang code|l|t i ps| |kind args|title b]; cbn [mild_block tame_block] in *; try exact T.
  - destruct T as (T1 & T2 & _). split; assumption.
  - destruct T as (T1 & T2 & _ & T3). repeat split; assumption.
  - destruct T as (T1 & T2 & T3). split; [exact T1|]. split; [exact T2|]. destruct ps as [|p r]; constructor; [right|]; apply T3.
  - destruct T as (T1 & T2 & T3 & _). split; [exact T1|]. split; [|exact T3]. clear T3. induction b as [|m b IHb]; [exact I|]. destruct T2 as [A1 A2]. split; [exact (IH m true A1)|exact (IHb A2)].
Qed.

Lemma starts_nl_leading : forall x, ~ starts_with_nl x -> leading c_nl x = 0.
Proof.
  intros [|d x] H; [reflexivity|]. cbn [leading]. destruct (char_eqb d c_nl) eqn:D; [|reflexivity]. exfalso. apply N.eqb_eq in D. subst d. apply H. exists x. reflexivity.
Qed.
Lemma leading_starts_nl : forall x, leading c_nl x <> 0 -> starts_with_nl x.
Proof.
  intros [|d x] H; [exfalso; apply H; reflexivity|]. cbn [leading] in H. destruct (char_eqb d c_nl) eqn:D; [|exfalso; apply H; reflexivity]. apply N.eqb_eq in D. subst d. exists x. reflexivity.
Qed.

Lemma mild_settled : forall y coll, mild_block coll y -> settled_block y -> tame_block coll y.
Proof.
  fix IH 1. intros y coll M S. destruct y as [l|k l|i|l|lang code|l|t i ps| |kind args|title b]; cbn [mild_block settled_block tame_block] in *; try exact M.
  - destruct M as [M1 M2]. repeat split; try assumption; apply M2 || apply S.
  - destruct M as (M1 & M2 & M3). repeat split; assumption.
  - destruct M as (M1 & M2 & M3). split; [exact M1|]. split; [exact M2|]. destruct ps as [|p r]; [exact S|]. destruct S as (S1 & S2 & S3). inversion M3 as [|? ? P F]; subst. destruct P as [->|P]; [congruence|].
    split; [exact P|]. split; [exact F|]. split; [|exact S3]. rewrite (starts_nl_leading _ S2). discriminate.
  - destruct M as (M1 & M2 & M3). destruct S as [S1 S2]. split; [exact M1|]. split; [|split; [exact M3|exact S2]]. clear M3 S2. induction b as [|m b IHb]; [exact I|]. destruct M2 as [A1 A2], S1 as [B1 B2].
    split; [exact (IH m true A1 B1)|exact (IHb A2 B2)].
Qed.
