(** Runs of line feeds, read from left to right. *)
From Coq Require Import Bool.
From Verif Require Import Base LexProofs LexFacts AstSpec Tame.

(** [even_runs] of a text after [k] line feeds. *)
Definition run_ok (k : nat) : bool := Nat.even k || (k <=? 1).
Fixpoint runsb (k : nat) (x : str) : bool :=
  match x with
  | [] => run_ok k
  | c :: x' => if char_eqb c c_nl then runsb (S k) x' else run_ok k && runsb 0 x'
  end.
Lemma run_ok_iff : forall k, run_ok k = true <-> k = 1 \/ Nat.Even k.
Proof.
  intros k. unfold run_ok. rewrite orb_true_iff, Nat.even_spec, Nat.leb_le. split.
  - intros [H|H]; [right; exact H|]. destruct k as [|[|k]]; [right; exists 0; reflexivity|left; reflexivity|lia].
  - intros [->|H]; [right; lia|left; exact H].
Qed.
Lemma runsb_spec : forall x k, runsb k x = true <->
  run_ok (k + leading c_nl x) = true /\ forall a b, x = a ++ b -> a <> [] -> ~ ends_with_nl a -> run_ok (leading c_nl b) = true.
Proof.
  assert (Tl : forall c a, a <> [] -> ends_with_nl (c :: a) -> ends_with_nl a).
  { intros c a N (y & E). destruct y as [|d y]; [injection E as _ E; contradiction|]. injection E as _ E. exists y. exact E. }
  assert (Hd : forall c a, ends_with_nl a -> ends_with_nl (c :: a)) by (intros c a (y & ->); exists (c :: y); reflexivity).
  induction x as [|c x IH]; intros k; cbn [runsb leading].
  - rewrite Nat.add_0_r. split; [intros H; split; [exact H|]|intros [H _]; exact H]. intros a b E N _. destruct a; [congruence|discriminate].
  - destruct (char_eqb c c_nl) eqn:E.
    + apply char_eqb_eq in E. subst c. rewrite IH. replace (S k + leading c_nl x) with (k + S (leading c_nl x)) by lia. split; intros [H1 H2]; (split; [exact H1|]).
      * intros [|d a] b Ex N Ha; [congruence|]. injection Ex as <- Ex. destruct a as [|e a]; [exfalso; apply Ha; exists []; reflexivity|]. apply (H2 (e :: a) b Ex); [discriminate|]. intros X. apply Ha. apply Hd. exact X.
      * intros a b Ex N Ha. apply (H2 (c_nl :: a) b); [rewrite Ex; reflexivity|discriminate|]. intros X. apply Ha. exact (Tl _ _ N X).
    + rewrite andb_true_iff, IH, Nat.add_0_r. cbn [plus]. split.
      * intros (H0 & H1 & H2). split; [exact H0|]. intros [|d a] b Ex N Ha; [congruence|]. injection Ex as <- Ex. destruct a as [|e a]; [rewrite <- (Ex : x = b); exact H1|].
        apply (H2 (e :: a) b Ex); [discriminate|]. intros X. apply Ha. apply Hd. exact X.
      * intros [H1 H2]. split; [exact H1|]. split.
        { apply (H2 [c] x eq_refl); [discriminate|]. intros ([|d [|? ?]] & X); try discriminate X. injection X as ->. rewrite char_eqb_refl in E. discriminate E. }
        intros a b Ex N Ha. apply (H2 (c :: a) b); [rewrite Ex; reflexivity|discriminate|]. intros X. apply Ha. exact (Tl _ _ N X).
Qed.
Lemma runsb_ok : forall x, runsb 0 x = true <-> even_runs x.
Proof.
  intros x. rewrite runsb_spec. unfold even_runs. cbn [plus]. split.
  - intros [H1 H2] a b E Ha. apply run_ok_iff. destruct a as [|c a]; [rewrite <- (E : x = b); exact H1|]. apply (H2 (c :: a) b E); [discriminate|exact Ha].
  - intros H. split; [apply run_ok_iff, (H [] x eq_refl); intros ([|? ?] & X); discriminate X|]. intros a b E _ Ha. apply run_ok_iff. exact (H a b E Ha).
Qed.
Lemma runsb_less : forall x k, runsb (S (S k)) x = true -> runsb k x = true.
Proof.
  assert (O : forall k, run_ok (S (S k)) = true -> run_ok k = true) by (intros k; rewrite !run_ok_iff; intros [H|(j & H)]; [lia|]; right; exists (j - 1); lia).
  induction x as [|c x IH]; intros k H; cbn [runsb] in *; [exact (O k H)|]. destruct (char_eqb c c_nl); [exact (IH (S k) H)|].
  apply andb_true_iff in H. destruct H as [H1 H2]. rewrite (O k H1), H2. reflexivity.
Qed.
