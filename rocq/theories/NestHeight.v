(** The height of a document. *)
From Coq Require Import Lia Arith.
From Verif Require Import Base Lexer LexSpec Ops Ast ToYamd Api NestSpec Nest NestLow.
Open Scope list_scope.

Lemma max_in : forall A (f : A -> nat) l, l = [] \/ exists x, In x l /\ f x = list_max (map f l).
Proof.
  intros A f. induction l as [|a l IH]; [left; reflexivity|]. right. cbn [map list_max fold_right]. change (fold_right Nat.max 0 (map f l)) with (list_max (map f l)).
  destruct IH as [->|(x & I & E)]; [exists a; split; [left; reflexivity|cbn; lia]|].
  destruct (le_lt_dec (list_max (map f l)) (f a)); [exists a; split; [left; reflexivity|lia]|exists x; split; [right; exact I|lia]].
Qed.
Lemma max_le : forall A (f : A -> nat) l x, In x l -> f x <= list_max (map f l).
Proof. intros A f. induction l as [|a l IH]; intros x []; cbn [map list_max fold_right]; [subst; lia|]. specialize (IH x H). change (fold_right Nat.max 0 (map f l)) with (list_max (map f l)). lia. Qed.

(** The height is reached by some nesting, and by none exceeded. *)
Lemma list_levels : forall k l, list_height l <= k -> levels (list_height l) l.
Proof.
  induction k as [|k IH]; intros [ty lvl its] L; [cbn in L; lia|]. cbn [list_height] in *.
  destruct (max_in _ item_height its) as [->|(it & I & E)]; [apply levels_one|]. rewrite <- E in *. destruct it as [x [l|]]; cbn [item_height] in *; [|apply levels_one].
  eapply levels_more; [exact I|]. apply IH. lia.
Qed.
Lemma levels_height : forall d l, levels d l -> d <= list_height l.
Proof.
  intros d l H. induction H as [ty lvl its|d ty lvl its x l I H IH]; cbn [list_height]; [lia|]. pose proof (max_le _ item_height its _ I) as M. cbn [item_height] in M. lia.
Qed.
Lemma height_nest : forall k n, height n <= k -> exists c d, nest c d n /\ c + d = height n.
Proof.
  induction k as [|k IH]; intros n L; destruct n as [b|l b|i|l|la c|l|t i b| |kk a|t b]; cbn [height] in *; try (exists 0, 0; split; [apply nest_none|reflexivity]); try lia.
  - destruct l; cbn in L; lia.
  - exists 0, (list_height l). split; [apply nest_list, (list_levels (list_height l)); lia|reflexivity].
  - destruct (max_in _ height b) as [->|(n & I & E)]; [exists 1, 0; split; [apply nest_collapsible|reflexivity]|]. rewrite <- E in *.
    destruct (IH n ltac:(lia)) as (c & d & N & X). exists (S c), d. split; [eapply nest_inside; eauto|lia].
Qed.
Lemma nest_height : forall c d n, nest c d n -> c + d <= height n.
Proof.
  intros c d n H. induction H as [n|d l H|t b|c d t b n I H IH]; cbn [height]; [lia|apply levels_height in H; lia|lia|]. pose proof (max_le _ height b _ I). lia.
Qed.
Lemma cost : forall c d, 12 * (c + d) <= 12 * c + d * d + 5 * d + 12.
Proof. intros c d. destruct d as [|[|[|[|d]]]]; nia. Qed.
Lemma height_bound : forall s y, deserialize s = Ok y -> 6 * doc_height y <= List.length s + 7.
Proof.
  intros s y E. unfold doc_height. destruct (max_in _ height (body y)) as [X|(n & I & X)]; [rewrite X; cbn; lia|]. rewrite <- X.
  destruct (height_nest _ n (le_n _)) as (c & d & N & Y). pose proof (nest_source s y n c d E I N). pose proof (cost c d). lia.
Qed.
Lemma height_reached : forall h, 3 <= h -> exists s y, deserialize s = Ok y /\ h <= doc_height y /\ List.length s + 7 = 6 * h.
Proof.
  intros h H. destruct (nest_reached (h - 3) 3 ltac:(lia)) as (s & y & n & E & I & N & L). exists s, y. split; [exact E|]. split; [|lia].
  apply nest_height in N. pose proof (max_le _ height (body y) n I). unfold doc_height. lia.
Qed.
Lemma height_exact : forall h, 3 <= h -> exists s y, deserialize s = Ok y /\ doc_height y = h /\ List.length s + 7 = 6 * h.
Proof.
  intros h H. destruct (height_reached h H) as (s & y & E & A & L). exists s, y. repeat split; [exact E| |exact L]. pose proof (height_bound s y E). lia.
Qed.
