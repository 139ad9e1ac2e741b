(** Only the empty document is written as the empty text, among those that can be read. *)
From Coq Require Import String Lia.
From Verif Require Import Base Lexer Ops Ast ToYamd Api AstSpec NormalSpec ImageNormal BlankSpec Blank.
Open Scope list_scope.

Lemma replace_nil : forall p r x, r <> [] -> replace p r x = [] -> x = [].
Proof.
  intros p r [|c x] R E; [reflexivity|]. exfalso. unfold replace in E. cbn [replace_go] in E. destruct (starts_with p (c :: x)); [|discriminate].
  apply app_eq_nil in E. destruct E as [E _]. contradiction.
Qed.
Lemma esc_nil : forall c x, esc_char c x = [] -> x = [].
Proof. intros c x. apply replace_nil. discriminate. Qed.
Lemma text_nil : forall x, display_text x = [] -> x = [].
Proof. intros x E. unfold display_text in E. repeat first [apply esc_nil in E|apply replace_nil in E; [|discriminate]]. exact E. Qed.
Lemma inline_shown : forall p, normal_inline p -> display_par_node p <> [].
Proof.
  intros [t u|b|x|x|x|x|x] N E; cbn in N; cbn [display_par_node] in E; try discriminate E.
  - unfold display_bold in E. destruct (bold_has_content b) eqn:H; [discriminate E|]. destruct N as (NE & F & _). destruct b as [|n b]; [congruence|]. cbn [bold_has_content existsb] in H.
    apply orb_false_elim in H. destruct H as [H _]. destruct n as [x|x|[|c x]]; try discriminate H. apply (F []); [left; left; reflexivity|reflexivity].
  - apply text_nil in E. contradiction.
  - unfold display_code_span in E. destruct x; [apply N; reflexivity|discriminate E].
Qed.
Lemma join_nil : forall sep l, sep <> [] -> join sep l = [] -> l = [] \/ l = [[]].
Proof.
  intros sep [|a [|b l]] NE E; [auto| |].
  - cbn in E. subst a. auto.
  - exfalso. cbn [join] in E. apply app_eq_nil in E. destruct E as [_ E]. apply app_eq_nil in E. destruct E as [E _]. contradiction.
Qed.
Lemma block_shown : forall n, normal_node n -> display_block n <> [].
Proof.
  intros [b|l b|i|l|la c|l|t i b| |k a|t b] N E; cbn [display_block display_node] in E; try discriminate E.
  - destruct N as (NE & N & _). unfold escape_leading_block_marker in E. destruct (_ || _) in E; [discriminate E|].
    destruct b as [|p b]; [congruence|]. unfold display_paragraph in E. cbn [flat_map] in E. apply app_eq_nil in E. destruct E as [E _]. inversion N; subst. eapply inline_shown; eauto.
  - destruct N as [[L _] _]. destruct l; [lia|discriminate E].
  - cbn [normal_node] in N. destruct l as [|x [|y l]]; cbn in N; try lia. unfold display_images in E. apply join_nil in E; [|discriminate]. destruct E as [E|E]; discriminate E.
  - destruct N as [L _]. destruct l as [ty l0 its]. destruct L as (-> & NE & _). cbn [display_list] in E. apply join_nil in E; [|discriminate].
    destruct its as [|it its]; [congruence|]. destruct E as [E|E]; [discriminate E|]. destruct ty; discriminate E.
Qed.
Lemma normal_shown : forall y, normal y -> display_yamd y = [] -> y = mk_yamd None [].
Proof.
  intros [[m|] b] [_ N] E; unfold display_yamd in E; cbn [metadata body] in E; [discriminate E|]. destruct b as [|n b]; [reflexivity|]. exfalso.
  unfold display_body in E. apply join_nil in E; [|discriminate]. destruct E as [E|E]; [discriminate E|]. cbn [map] in E. injection E as E _. apply (block_shown n); [|exact E].
  apply N. unfold doc_nodes. cbn [body flat_map]. apply in_or_app. left. destruct n; left; reflexivity.
Qed.
Lemma shown_blank : forall s y, deserialize s = Ok y -> (display_yamd y = [] <-> blank s).
Proof.
  intros s y E. rewrite <- (empty_source s), E. split.
  - intros D. f_equal. apply normal_shown; [|exact D]. apply image. eauto.
  - intros H. injection H as ->. reflexivity.
Qed.
