(** Texts with escaping made explicit.  [Display] escapes by a chain of [str::replace] calls; here
    each call is turned into a change of flags on a list of (escaped, character) pairs. *)
From Coq Require Import String.
From Verif Require Import Base LexProofs LexFacts Ast AstSpec Tame Runs.

Definition uchar : Type := (bool * char)%type.
Definition raw (c : char) : uchar := (false, c).
Definition escd (c : char) : uchar := (true, c).

Definition render1 (u : uchar) : str := if fst u then [c_bslash; snd u] else [snd u].
Fixpoint render (us : list uchar) : str :=
  match us with [] => [] | u :: us' => render1 u ++ render us' end.
Fixpoint chars (us : list uchar) : str := match us with [] => [] | u :: us' => snd u :: chars us' end.
Fixpoint bare (x : str) : list uchar := match x with [] => [] | c :: x' => raw c :: bare x' end.

(** An unescaped character is no backslash. *)
Definition valid (us : list uchar) : Prop := Forall (fun u => fst u = false -> snd u <> c_bslash) us.

Lemma render_app : forall a b, render (a ++ b) = render a ++ render b.
Proof. induction a as [|u a IH]; intros b; [reflexivity|]. cbn. rewrite IH, app_assoc. reflexivity. Qed.
Lemma chars_app : forall a b, chars (a ++ b) = chars a ++ chars b.
Proof. induction a as [|u a IH]; intros b; [reflexivity|]. cbn. rewrite IH. reflexivity. Qed.
Lemma render_bare : forall x, render (bare x) = x.
Proof. induction x as [|c x IH]; [reflexivity|]. cbn. rewrite IH. reflexivity. Qed.
Lemma chars_bare : forall x, chars (bare x) = x.
Proof. induction x as [|c x IH]; [reflexivity|]. cbn. rewrite IH. reflexivity. Qed.
Lemma valid_app : forall a b, valid (a ++ b) <-> valid a /\ valid b.
Proof. intros. apply Forall_app. Qed.
Lemma valid_bare : forall x, ~ In c_bslash x -> valid (bare x).
Proof.
  induction x as [|c x IH]; intros H; [constructor|]. constructor; [cbn; intros _ ->; apply H; left; reflexivity|].
  apply IH. intros Hx. apply H. right. exact Hx.
Qed.

(** ** More escapes *)

(** The same characters, with at least the same ones escaped; newly escaped ones satisfy [C]. *)
Definition more1 (C : char -> Prop) (u v : uchar) : Prop :=
  snd u = snd v /\ (fst u = true -> fst v = true) /\ (fst v = true -> fst u = true \/ C (snd u)).
Definition more (C : char -> Prop) : list uchar -> list uchar -> Prop := Forall2 (more1 C).

Lemma more_refl : forall C us, more C us us.
Proof. induction us; constructor; auto. split; [reflexivity|]. split; auto. Qed.
Lemma more_weaken : forall (C D : char -> Prop) a b, (forall c, C c -> D c) -> more C a b -> more D a b.
Proof. intros C D a b H M. induction M as [|u v a b (H1 & H2 & H3) M IH]; constructor; auto. split; [exact H1|]. split; [exact H2|]. intros E. destruct (H3 E); auto. Qed.
Lemma more_trans : forall C a b c, more C a b -> more C b c -> more C a c.
Proof.
  intros C a b c M. revert c. induction M as [|u v a b (H1 & H2 & H3) M IH]; intros c N; inversion N as [|? w ? ? (G1 & G2 & G3) N']; subst; constructor; auto.
  split; [congruence|]. split; [auto|]. intros E. destruct (G3 E) as [E'|E']; [apply H3; exact E'|]. right. rewrite H1. exact E'.
  apply IH. exact N'.
Qed.
Lemma more_chars : forall C a b, more C a b -> chars b = chars a.
Proof. intros C a b M. induction M as [|u v a b (H1 & _) M IH]; [reflexivity|]. cbn. rewrite IH, H1. reflexivity. Qed.
Lemma more_length : forall C a b, more C a b -> List.length b = List.length a.
Proof. intros C a b M. induction M; cbn; congruence. Qed.
Lemma more_app : forall C a b a' b', more C a a' -> more C b b' -> more C (a ++ b) (a' ++ b').
Proof. intros. apply Forall2_app; assumption. Qed.
Lemma more_split : forall C a b m, more C (a ++ b) m -> exists a' b', m = a' ++ b' /\ more C a a' /\ more C b b'.
Proof. intros C a b m M. apply Forall2_app_inv_l in M. destruct M as (a' & b' & M1 & M2 & ->). eauto. Qed.
Lemma more_cons : forall C u a m, more C (u :: a) m -> exists v b, m = v :: b /\ more1 C u v /\ more C a b.
Proof. intros C u a m M. inversion M; subst. eauto. Qed.
Lemma more_nil : forall C m, more C [] m -> m = [].
Proof. intros C m M. inversion M. reflexivity. Qed.

(** Where nothing can be newly escaped nothing changes. *)
Lemma more_fixed : forall (C : char -> Prop) a m, more C a m -> (forall c, In c (chars a) -> ~ C c) -> m = a.
Proof.
  intros C a m M. induction M as [|u v a b (H1 & H2 & H3) M IH]; intros N; [reflexivity|].
  f_equal; [|apply IH; intros c Hc; apply N; right; exact Hc].
  destruct u as [e c], v as [e' c']. cbn in *. subst c'. f_equal. destruct e', e; auto; try (specialize (H2 eq_refl); discriminate).
  destruct (H3 eq_refl) as [X|X]; [discriminate|]. exfalso. apply (N c); [left; reflexivity|exact X].
Qed.
Lemma more_valid : forall C a b, more C a b -> valid a -> valid b.
Proof.
  intros C a b M V. induction M as [|u v a b (H1 & H2 & H3) M IH]; [constructor|]. inversion V; subst. constructor; [|apply IH; assumption].
  intros E. rewrite <- H1. apply H4. destruct (fst u); auto. specialize (H2 eq_refl). congruence.
Qed.

(** Properties that only talk about unescaped characters are kept. *)
Lemma more_unescaped : forall C a b v, more C a b -> In v b -> fst v = false -> In v a.
Proof.
  intros C a b v M Hv E. induction M as [|u w a b (H1 & H2 & H3) M IH]; [contradiction|]. destruct Hv as [->|Hv]; [left|right; auto].
  destruct u as [e c], v as [e' c']. cbn in *. subst. destruct e; [specialize (H2 eq_refl); discriminate|reflexivity].
Qed.

(** ** [str::replace] on rendered texts *)

(** A pattern is a list of characters with flags: its text is replaced by the text with a backslash
    in front of the flagged characters. It matches raw characters: all but the first must be unescaped. *)
Fixpoint follows (qs us : list uchar) : bool :=
  match qs with
  | [] => true
  | q :: qs' => match us with u :: us' => negb (fst u) && char_eqb (snd q) (snd u) && follows qs' us' | [] => false end
  end.
Definition umatch (pat us : list uchar) : bool :=
  match pat, us with
  | q :: qs, u :: us' => char_eqb (snd q) (snd u) && follows qs us'
  | _, _ => false
  end.

Fixpoint umark (pat pend us : list uchar) : list uchar :=
  match us with
  | [] => []
  | u :: us' =>
      match pend with
      | q :: pend' => (fst u || fst q, snd u) :: umark pat pend' us'
      | [] =>
          if umatch pat us
          then match pat with q :: qs => (fst u || fst q, snd u) :: umark pat qs us' | [] => [] end
          else u :: umark pat [] us'
      end
  end.

Lemma follows_app : forall qs us, follows qs us = true ->
  exists g us', us = g ++ us' /\ g = bare (chars qs).
Proof.
  induction qs as [|q qs IH]; intros us H; [exists [], us; auto|]. destruct us as [|[e c] us]; [discriminate|]. cbn in H.
  apply andb_true_iff in H. destruct H as [H H1]. apply andb_true_iff in H. destruct H as [H2 H3]. apply char_eqb_eq in H3.
  destruct e; [discriminate|]. destruct (IH us H1) as (g & us' & -> & ->). exists ((false, c) :: bare (chars qs)), us'.
  split; [reflexivity|]. cbn. rewrite H3. reflexivity.
Qed.
Lemma follows_bare : forall qs us, follows qs (bare (chars qs) ++ us) = true.
Proof. induction qs as [|q qs IH]; intros us; [reflexivity|]. cbn. rewrite char_eqb_refl. apply IH. Qed.

Lemma starts_with_app : forall x y, starts_with x (x ++ y) = true.
Proof. induction x as [|c x IH]; intros y; [reflexivity|]. cbn. rewrite char_eqb_refl. apply IH. Qed.

(** A raw match of characters other than the backslash is a match of unescaped units. *)
Lemma starts_with_render : forall qs us, (forall c, In c (chars qs) -> c <> c_bslash) ->
  starts_with (chars qs) (render us) = follows qs us.
Proof.
  induction qs as [|q qs IH]; intros us H; [reflexivity|]. destruct us as [|[e c] us]; [reflexivity|].
  assert (N : snd q <> c_bslash) by (apply H; left; reflexivity). cbn. destruct e; cbn.
  - destruct (char_eqb (snd q) c_bslash) eqn:E; [apply char_eqb_eq in E; contradiction|reflexivity].
  - rewrite IH; [reflexivity|]. intros d Hd. apply H. right. exact Hd.
Qed.

Lemma skip_all : forall P R x y, replace_go P R (List.length x) (x ++ y) = replace_go P R 0 y.
Proof. induction x as [|c x IH]; intros y; [reflexivity|]. cbn. apply IH. Qed.

Lemma umark_pend : forall pat qs us, umark pat qs (bare (chars qs) ++ us) = qs ++ umark pat [] us.
Proof.
  induction qs as [|[e c] qs IH]; intros us; [reflexivity|]. cbn. rewrite IH. reflexivity.
Qed.

(** The backslash in front of an escaped character starts no match. *)
Lemma replace_bslash : forall q qs rep x, snd q <> c_bslash ->
  replace_go (chars (q :: qs)) rep 0 (c_bslash :: x) = c_bslash :: replace_go (chars (q :: qs)) rep 0 x.
Proof.
  intros q qs rep x H. cbn [replace_go]. replace (starts_with (chars (q :: qs)) (c_bslash :: x)) with false; [reflexivity|].
  cbn. destruct (char_eqb (snd q) c_bslash) eqn:E; [apply char_eqb_eq in E; contradiction|reflexivity].
Qed.

Lemma replace_render : forall pat us, (forall c, In c (chars pat) -> c <> c_bslash) -> pat <> [] ->
  (forall q qs a b, pat = q :: qs -> fst q = true -> us = a ++ escd (snd q) :: b -> follows qs b = false) ->
  replace (chars pat) (render pat) (render us) = render (umark pat [] us).
Proof.
  intros pat us Hp NE. destruct pat as [|q qs]; [congruence|]. clear NE. unfold replace.
  remember (List.length us) as n eqn:En. assert (L : List.length us <= n) by lia. clear En. revert us L.
  induction n as [|n IH]; intros us L H.
  { destruct us; [reflexivity|cbn in L; lia]. }
  destruct us as [|u us]; [reflexivity|]. cbn in L.
  assert (Hq : snd q <> c_bslash) by (apply Hp; left; reflexivity).
  assert (Hqs : forall c, In c (chars qs) -> c <> c_bslash) by (intros c Hc; apply Hp; right; exact Hc).
  assert (Hus : forall q0 qs0 a b, q :: qs = q0 :: qs0 -> fst q0 = true -> us = a ++ escd (snd q0) :: b -> follows qs0 b = false).
  { intros q0 qs0 a b E0 E1 ->. apply (H q0 qs0 (u :: a) b E0 E1). reflexivity. }
  cbn [umark]. destruct (umatch (q :: qs) (u :: us)) eqn:M.
  - cbn [umatch] in M. apply andb_true_iff in M. destruct M as [M1 M2]. apply char_eqb_eq in M1.
    destruct (follows_app _ _ M2) as (g & us' & -> & ->). rewrite umark_pend.
    assert (IH' := IH us' ltac:(rewrite app_length in L; lia)).
    assert (Step : replace_go (chars (q :: qs)) (render (q :: qs)) 0 (snd u :: render (bare (chars qs) ++ us'))
                   = render (q :: qs) ++ render (umark (q :: qs) [] us')).
    { rewrite render_app, render_bare. cbn [replace_go]. rewrite <- M1.
      change (snd q :: chars qs ++ render us') with (chars (q :: qs) ++ render us'). rewrite starts_with_app.
      replace (List.length (chars (q :: qs)) - 1) with (List.length (chars qs)) by (cbn; lia). rewrite skip_all. f_equal. apply IH'.
      intros q0 qs0 a b E0 E1 ->. apply (Hus q0 qs0 (bare (chars qs) ++ a) b E0 E1). rewrite <- app_assoc. reflexivity. }
    destruct u as [e c]. cbn in M1. subst c. destruct e.
    + destruct q as [fq cq]. destruct fq; [exfalso; rewrite (H (true, cq) qs [] _ eq_refl eq_refl eq_refl) in M2; discriminate|].
      change (render ((true, snd (false, cq)) :: bare (chars qs) ++ us')) with (c_bslash :: cq :: render (bare (chars qs) ++ us')).
      rewrite replace_bslash by exact Hq. etransitivity; [apply f_equal; exact Step|]. cbn. rewrite render_app. reflexivity.
    + destruct q as [fq cq]. cbn [snd fst] in *. etransitivity; [exact Step|]. cbn [orb]. change (((fq, cq) :: qs) ++ umark ((fq, cq) :: qs) [] us') with ((fq, cq) :: qs ++ umark ((fq, cq) :: qs) [] us').
      rewrite <- render_app. reflexivity.
  - assert (IH' := IH us ltac:(lia) Hus).
    assert (Step : replace_go (chars (q :: qs)) (render (q :: qs)) 0 (snd u :: render us)
                   = snd u :: render (umark (q :: qs) [] us)).
    { cbn [replace_go]. replace (starts_with (chars (q :: qs)) (snd u :: render us)) with false; [f_equal; exact IH'|].
      cbn. rewrite starts_with_render by exact Hqs. cbn in M. symmetry. exact M. }
    destruct u as [e c]. destruct e; cbn [snd] in Step.
    + change (render ((true, c) :: us)) with (c_bslash :: c :: render us). rewrite replace_bslash by exact Hq. apply (f_equal (cons c_bslash)). exact Step.
    + exact Step.
Qed.

(** ** What a replacement does to the flags *)

Lemma umark_more : forall pat pend us, (forall q, In q pend -> In q pat) -> follows pend us = true ->
  more (fun c => In (true, c) pat) us (umark pat pend us).
Proof.
  intros pat pend us. revert pend. induction us as [|u us IH]; intros pend H Fo; [constructor|]. cbn [umark].
  destruct pend as [|q pend].
  - destruct (umatch pat (u :: us)) eqn:M.
    + destruct pat as [|q qs]; [discriminate|]. cbn in M. apply andb_true_iff in M. destruct M as [M1 M2]. apply char_eqb_eq in M1.
      constructor; [|apply IH; [intros; right; assumption|exact M2]].
      split; [reflexivity|]. cbn. split; [intros ->; reflexivity|]. intros E. apply orb_true_iff in E. destruct E as [E|E]; [left; exact E|].
      right. left. destruct q as [fq cq]; cbn in *; congruence.
    + constructor; [split; [reflexivity|split; auto]|apply IH; [intros ? []|reflexivity]].
  - cbn in Fo. apply andb_true_iff in Fo. destruct Fo as [Fo Fo2]. apply andb_true_iff in Fo. destruct Fo as [_ Fo1]. apply char_eqb_eq in Fo1.
    constructor; [|apply IH; [intros; apply H; right; assumption|exact Fo2]].
    split; [reflexivity|]. cbn. split; [intros ->; reflexivity|]. intros E. apply orb_true_iff in E. destruct E as [E|E]; [left; exact E|].
    right. specialize (H q (or_introl eq_refl)). destruct q as [fq cq]; cbn in *; rewrite <- Fo1, <- E; exact H.
Qed.

Lemma follows_more : forall C qs a b, more C a b -> follows qs b = true -> follows qs a = true.
Proof.
  intros C qs. induction qs as [|q qs IH]; intros a b M H; [reflexivity|]. destruct M as [|u v a b (H1 & H2 & H3) M]; [discriminate|].
  cbn in *. apply andb_true_iff in H. destruct H as [H H4]. apply andb_true_iff in H. destruct H as [H5 H6].
  rewrite (IH _ _ M H4), andb_true_r, H1, H6, andb_true_r. destruct (fst u); [rewrite (H2 eq_refl) in H5; discriminate|reflexivity].
Qed.
Lemma umatch_more : forall C pat a b, more C a b -> umatch pat b = true -> umatch pat a = true.
Proof.
  intros C pat a b M H. destruct pat as [|q qs]; [discriminate|]. destruct M as [|u v a b (H1 & H2 & H3) M]; [discriminate|].
  cbn in *. apply andb_true_iff in H. destruct H as [H4 H5]. rewrite H1, H4. cbn. eapply follows_more; eauto.
Qed.

(** The flags of the pattern are set on [us]. *)
Definition marked (pat us : list uchar) : Prop :=
  exists g us', us = g ++ us' /\ Forall2 (fun q u => snd q = snd u /\ (fst q = true -> fst u = true)) pat g.

Lemma marked_self : forall qs us, marked qs (qs ++ us).
Proof. intros qs us. exists qs, us. split; [reflexivity|]. induction qs; constructor; auto. Qed.

Lemma umark_spec : forall pat us pend a b pre, pat <> [] -> (pend = [] \/ pat = pre ++ pend) -> follows pend us = true ->
  umark pat pend us = a ++ b -> umatch pat b = true ->
  marked pat b
  \/ (exists a' c u b' p q r post, a = a' ++ [c] /\ b = u :: b' /\ pat = r ++ p :: q :: post /\ snd c = snd p /\ snd u = snd q /\ (fst q = true -> fst u = true))
  \/ (a = [] /\ exists q pend' u b', pend = q :: pend' /\ b = u :: b' /\ snd u = snd q /\ (fst q = true -> fst u = true)).
Proof.
  intros pat us. induction us as [|u us IH]; intros pend a b pre NE Hp Fo E M.
  { destruct a; [|discriminate]. destruct b; [|discriminate]. destruct pat; discriminate. }
  cbn [umark] in E. destruct pend as [|q pend].
  - destruct (umatch pat (u :: us)) eqn:M0.
    + destruct pat as [|q qs]; [discriminate|]. cbn in M0. apply andb_true_iff in M0. destruct M0 as [M1 M2]. apply char_eqb_eq in M1.
      destruct a as [|x a].
      * left. destruct (follows_app _ _ M2) as (g & us' & -> & ->). rewrite umark_pend in E. cbn in E. subst b.
        exists ((fst u || fst q, snd u) :: qs), (umark (q :: qs) [] us'). split; [reflexivity|]. constructor.
        { split; [exact M1|]. cbn. intros ->. apply orb_true_r. }
        clear. induction qs; constructor; auto.
      * injection E as Ex E. destruct (IH qs a b [q] NE (or_intror eq_refl) M2 E M) as [X|[X|(-> & q2 & pend' & v & b' & -> & -> & H1 & H2)]]; [left; exact X| |].
        { right. left. destruct X as (a' & c & v & b' & p & q2 & r & post & -> & -> & X). exists (x :: a'), c, v, b', p, q2, r, post. split; [reflexivity|]. split; [reflexivity|exact X]. }
        { right. left. exists [], x, v, b', q, q2, [], pend'. split; [reflexivity|]. split; [reflexivity|]. split; [reflexivity|].
          subst x. cbn. auto. }
    + destruct a as [|x a].
      * exfalso. cbn in E. assert (X : umatch pat (u :: us) = true); [|congruence].
        eapply (umatch_more (fun c => In (true, c) pat)); [|exact M]. rewrite <- E.
        constructor; [split; [reflexivity|split; auto]|]. apply umark_more; [intros ? []|reflexivity].
      * injection E as <- E. destruct (IH [] a b [] NE (or_introl eq_refl) eq_refl E M) as [X|[X|(-> & q2 & pend' & v & b' & X & _)]]; [left; exact X| |discriminate].
        right. left. destruct X as (a' & c & v & b' & p & q2 & r & post & -> & -> & X). exists (u :: a'), c, v, b', p, q2, r, post. split; [reflexivity|]. split; [reflexivity|exact X].
  - destruct Hp as [Hp|Hp]; [discriminate|]. pose proof Fo as Fo0. cbn in Fo. apply andb_true_iff in Fo. destruct Fo as [Fo Fo2]. apply andb_true_iff in Fo. destruct Fo as [_ Fo1]. apply char_eqb_eq in Fo1.
    destruct a as [|x a].
    + right. right. split; [reflexivity|]. cbn in E. subst b. exists q, pend, (fst u || fst q, snd u), (umark pat pend us).
      split; [reflexivity|]. split; [reflexivity|]. split; [symmetry; exact Fo1|]. cbn. intros ->. apply orb_true_r.
    + injection E as Ex E. assert (Hp' : pend = [] \/ pat = (pre ++ [q]) ++ pend) by (right; rewrite <- app_assoc; exact Hp).
      destruct (IH pend a b (pre ++ [q]) NE Hp' Fo2 E M) as [X|[X|(-> & q2 & pend' & v & b' & -> & -> & H1 & H2)]]; [left; exact X| |].
      * right. left. destruct X as (a' & c & v & b' & p & q2 & r & post & -> & -> & X). exists (x :: a'), c, v, b', p, q2, r, post. split; [reflexivity|]. split; [reflexivity|exact X].
      * right. left. exists [], x, v, b', q, q2, pre, pend'. split; [reflexivity|]. split; [reflexivity|]. split; [exact Hp|].
        subst x. cbn. auto.
Qed.

Lemma umark_spec0 : forall pat us a b, pat <> [] -> umark pat [] us = a ++ b -> umatch pat b = true ->
  marked pat b
  \/ (exists a' c u b' p q r post, a = a' ++ [c] /\ b = u :: b' /\ pat = r ++ p :: q :: post /\ snd c = snd p /\ snd u = snd q /\ (fst q = true -> fst u = true)).
Proof.
  intros pat us a b NE E M. destruct (umark_spec pat us [] a b [] NE (or_introl eq_refl) eq_refl E M) as [X|[X|(_ & q & p & u & b' & X & _)]]; [left; exact X|right; exact X|discriminate].
Qed.

(** ** The replacements of [Display] *)

(** One character. *)
Fixpoint esc (c : char) (us : list uchar) : list uchar :=
  match us with [] => [] | u :: us' => (fst u || char_eqb c (snd u), snd u) :: esc c us' end.

Lemma umark_one : forall c us, umark [escd c] [] us = esc c us.
Proof.
  intros c us. induction us as [|[e d] us IH]; [reflexivity|]. cbn [umark umatch follows esc map fst snd escd]. rewrite andb_true_r.
  destruct (char_eqb c d); cbn; rewrite IH; [reflexivity|]. rewrite orb_false_r. reflexivity.
Qed.


Definition absent (c : char) (us : list uchar) : Prop := ~ In (raw c) us.
Definition no2 (c d : char) (us : list uchar) : Prop := forall a b, us <> a ++ raw c :: raw d :: b.

Lemma more_escd : forall C a b d, more C a b -> In (escd d) b -> In (escd d) a \/ C d.
Proof.
  intros C a b d M H. induction M as [|u v a b (H1 & H2 & H3) M IH]; [contradiction|]. destruct H as [->|H].
  - destruct u as [e c]. cbn in *. subst c. destruct (H3 eq_refl) as [->|X]; [left; left; reflexivity|right; exact X].
  - destruct (IH H); [left; right; assumption|right; assumption].
Qed.
Lemma more_absent : forall C a b c, more C a b -> absent c a -> absent c b.
Proof. intros C a b c M H Hi. apply H. eapply more_unescaped; eauto. Qed.
Lemma more_no2 : forall C a b c d, more C a b -> no2 c d a -> no2 c d b.
Proof.
  intros C a b c d M H x y ->. apply Forall2_app_inv_r in M. destruct M as (x' & r & _ & M & ->).
  inversion M as [|u ? r' ? (H1 & H2 & _) M']; subst. inversion M' as [|v ? r2 ? (H3 & H4 & _) _]; subst.
  apply (H x' r2). destruct u as [[] u], v as [[] v]; cbn in *; subst; try reflexivity; try (specialize (H2 eq_refl); discriminate); specialize (H4 eq_refl); discriminate.
Qed.
Lemma absent_app : forall c a b, absent c (a ++ b) <-> absent c a /\ absent c b.
Proof. intros c a b. unfold absent. rewrite in_app_iff. tauto. Qed.
Lemma no2_absent1 : forall c d us, absent c us -> no2 c d us.
Proof. intros c d us H a b ->. apply H. apply in_or_app. right. left. reflexivity. Qed.
Lemma no2_absent2 : forall c d us, absent d us -> no2 c d us.
Proof. intros c d us H a b ->. apply H. apply in_or_app. right. right. left. reflexivity. Qed.

Lemma esc_more : forall c us, more (eq c) us (esc c us).
Proof.
  induction us as [|[e d] us IH]; constructor; [|exact IH]. split; [reflexivity|]. cbn. split; [intros ->; reflexivity|].
  intros H. apply orb_true_iff in H. destruct H as [H|H]; [left; exact H|right; apply char_eqb_eq; exact H].
Qed.
Lemma absent_esc : forall c us, absent c (esc c us).
Proof.
  intros c us H. induction us as [|[e d] us IH]; [contradiction|]. destruct H as [H|H]; [|auto]. unfold raw in H. cbn in H.
  injection H as H1 ->. rewrite char_eqb_refl, orb_true_r in H1. discriminate.
Qed.

Lemma esc_char_render : forall c us, c <> c_bslash -> ~ In (escd c) us -> esc_char c (render us) = render (esc c us).
Proof.
  intros c us H N. rewrite <- umark_one. apply (replace_render [escd c]); [|discriminate|].
  - intros d [<-|[]]. exact H.
  - intros q qs a b E _ ->. injection E as <- _. exfalso. apply N. apply in_or_app. right. left. reflexivity.
Qed.

(** Escaping the backslash comes first everywhere. *)
Definition u0 (x : str) : list uchar := esc c_bslash (bare x).
Lemma esc_bslash_render : forall x, esc_char c_bslash x = render (u0 x).
Proof.
  unfold esc_char, u0, replace. induction x as [|c x IH]; [reflexivity|]. cbn [replace_go bare esc raw fst snd orb]. cbn [starts_with].
  destruct (char_eqb c_bslash c) eqn:E.
  - apply char_eqb_eq in E. subst c. cbn [List.length Nat.sub]. rewrite IH. reflexivity.
  - cbn [andb]. rewrite IH. reflexivity.
Qed.
Lemma u0_chars : forall x, chars (u0 x) = x.
Proof. intros x. unfold u0. rewrite (more_chars _ _ _ (esc_more _ _)). apply chars_bare. Qed.
Lemma u0_valid : forall x, valid (u0 x).
Proof.
  intros x. apply Forall_forall. intros [e c] Hu. cbn. intros -> ->. apply (absent_esc c_bslash (bare x)). exact Hu.
Qed.
Lemma bare_raw : forall x u, In u (bare x) -> fst u = false.
Proof. induction x as [|c x IH]; intros u H; [contradiction|]. destruct H as [<-|H]; auto. Qed.
Lemma u0_escd : forall x d, In (escd d) (u0 x) -> d = c_bslash.
Proof.
  intros x d H. destruct (more_escd _ _ _ _ (esc_more c_bslash (bare x)) H) as [H'|H']; [|congruence].
  apply bare_raw in H'. discriminate.
Qed.

Lemma umark_chars : forall pat us, chars (umark pat [] us) = chars us.
Proof. intros. eapply more_chars. apply umark_more; [intros ? []|reflexivity]. Qed.
Lemma umark0_more : forall pat us, more (fun c => In (true, c) pat) us (umark pat [] us).
Proof. intros. apply umark_more; [intros ? []|reflexivity]. Qed.

(** A blank line: the first line feed is escaped. *)
Definition nn (us : list uchar) : list uchar := umark [escd c_nl; raw c_nl] [] us.
(** Both line feeds are escaped. *)
Definition nn2 (us : list uchar) : list uchar := umark [escd c_nl; escd c_nl] [] us.
Definition pp (us : list uchar) : list uchar := umark [escd c_percent; raw c_rcurly] [] us.
Definition stars (us : list uchar) : list uchar := umark [escd c_star; raw c_star] [] us.
Definition bangs (us : list uchar) : list uchar := umark [escd c_bang; raw c_bang] [] us.
Definition fences (us : list uchar) : list uchar := umark [escd c_backtick; raw c_backtick; raw c_backtick] [] us.
Definition markers (m : char) (us : list uchar) : list uchar := umark [raw c_nl; escd m; raw c_space] [] us.

Lemma marked_hd : forall q qs u us, marked (q :: qs) (u :: us) -> fst q = true -> fst u = true.
Proof. intros q qs u us (g & r & E & F2) H. inversion F2 as [|? v ? g' [_ F3] F4]; subst. injection E as <- _. auto. Qed.
Lemma marked_snd : forall q p qs u v us, marked (q :: p :: qs) (u :: v :: us) -> fst p = true -> fst v = true.
Proof.
  intros q p qs u v us (g & r & E & F2) H. inversion F2 as [|? ? ? ? _ F3]; subst. inversion F3 as [|? ? ? ? [_ F4] _]; subst.
  injection E as _ <- _. auto.
Qed.

(** A pattern of two characters, the first one flagged: raw matches that remain are preceded by the first character. *)
Lemma two_left : forall c d e us a b, umark [escd c; (e, d)] [] us = a ++ raw c :: raw d :: b ->
  c = d /\ e = false /\ exists a' u, a = a' ++ [u] /\ snd u = c.
Proof.
  intros c d e us a b E. destruct (umark_spec0 [escd c; (e, d)] us a (raw c :: raw d :: b) ltac:(discriminate) E) as [M|M].
  - cbn. rewrite !char_eqb_refl. reflexivity.
  - apply marked_hd in M; [discriminate|reflexivity].
  - destruct M as (a' & u & v & b' & p & q & r & post & -> & Eb & Ep & H1 & H2 & H3). injection Eb as <- <-.
    destruct r as [|? r]; [|destruct r as [|? [|? ?]]; discriminate]. injection Ep as <- <- <-. cbn in *. subst d.
    split; [reflexivity|]. split; [destruct e; auto; specialize (H3 eq_refl); discriminate|]. exists a', u. auto.
Qed.

Lemma nn2_no2 : forall us, no2 c_nl c_nl (nn2 us).
Proof. intros us a b E. destruct (two_left _ _ _ _ _ _ E) as (_ & X & _). discriminate. Qed.
Lemma pp_no2 : forall us, no2 c_percent c_rcurly (pp us).
Proof. intros us a b E. destruct (two_left _ _ _ _ _ _ E) as (X & _). discriminate. Qed.

Lemma nn_no2 : forall us, ~ In (escd c_nl) us -> even_runs (chars us) -> no2 c_nl c_nl (nn us).
Proof.
  intros us N H. apply runsb_ok in H. unfold nn. remember (List.length us) as n eqn:En. assert (L : List.length us <= n) by lia. clear En. revert us L N H.
  induction n as [|n IH]; intros us L N H; [destruct us; [intros [|? ?] b E; discriminate E|cbn in L; lia]|].
  destruct us as [|u us]; [intros [|? ?] b E; discriminate E|]. cbn in L.
  assert (Nu : ~ In (escd c_nl) us) by (intros X; apply N; right; exact X).
  cbn [umark]. destruct (umatch [escd c_nl; raw c_nl] (u :: us)) eqn:M.
  - cbn [umatch] in M. apply andb_true_iff in M. destruct M as [M1 M2]. apply char_eqb_eq in M1. destruct us as [|v us]; [discriminate|]. cbn [follows] in M2.
    rewrite andb_true_r in M2. apply andb_true_iff in M2. destruct M2 as [M2 M3]. apply char_eqb_eq in M3. destruct u as [eu cu], v as [ev cv]. cbn in M1, M2, M3. subst cu cv. destruct ev; [discriminate|].
    cbn [umark fst snd orb escd raw]. rewrite orb_true_r. cbn [chars snd runsb] in H. rewrite char_eqb_refl in H. cbn in L.
    assert (N2 : ~ In (escd c_nl) us) by (intros X; apply N; right; right; exact X).
    assert (IH2 := IH us ltac:(lia) N2 (runsb_less _ _ H)).
    intros a b E. destruct a as [|p a]; [discriminate E|]. injection E as _ E. destruct a as [|p2 a]; [|injection E as _ E; exact (IH2 _ _ E)]. injection E as E.
    destruct us as [|w us]; [discriminate E|]. cbn [umark] in E. destruct (umatch [escd c_nl; raw c_nl] (w :: us)) eqn:M; [injection E as E _; unfold raw, escd in E; cbn in E; rewrite orb_true_r in E; discriminate E|].
    injection E as -> E. cbn [chars snd runsb raw] in H. rewrite char_eqb_refl in H. destruct us as [|[e d] us]; [cbn in H; discriminate H|]. cbn [chars snd runsb] in H.
    destruct (char_eqb d c_nl) eqn:Ed; [|cbn in H; discriminate H]. apply char_eqb_eq in Ed. subst d. destruct e; [apply N2; right; left; reflexivity|]. cbn in M. discriminate M.
  - destruct (char_eqb (snd u) c_nl) eqn:Eu.
    + apply char_eqb_eq in Eu. destruct u as [e c]. cbn in Eu. subst c. destruct e; [exfalso; apply N; left; reflexivity|].
      destruct us as [|[e d] us]; [intros [|p [|? ?]] b E; discriminate E|]. cbn in M. rewrite andb_true_r in M.
      assert (Ed : char_eqb d c_nl = false).
      { destruct (char_eqb d c_nl) eqn:Ed; [|reflexivity]. apply char_eqb_eq in Ed. subst d. destruct e; [exfalso; apply N; right; left; reflexivity|discriminate M]. }
      cbn [chars snd runsb] in H. rewrite char_eqb_refl, Ed in H. cbn [andb] in H.
      assert (Hu : runsb 0 (chars ((e, d) :: us)) = true) by (cbn [chars snd runsb]; rewrite Ed; exact H).
      assert (IH2 := IH ((e, d) :: us) ltac:(cbn in L |- *; lia) Nu Hu). intros a b E. destruct a as [|p a]; [|injection E as _ E; exact (IH2 _ _ E)].
      apply (f_equal (@tl uchar)) in E. cbn [tl app] in E. apply (f_equal chars) in E. rewrite umark_chars in E. injection E as -> _. discriminate Ed.
    + cbn [chars runsb] in H. rewrite Eu in H. cbn [andb] in H. assert (IH2 := IH us ltac:(lia) Nu H). intros a b E. destruct a as [|p a]; [|injection E as _ E; exact (IH2 _ _ E)].
      injection E as -> _. discriminate Eu.
Qed.

(** Of the line feeds of a run that are escaped in pairs, at most the last one stays unescaped. *)
Lemma leading_snoc : forall c x d, leading c (x ++ [d]) = if forallb (fun e => char_eqb e c) x then List.length x + leading c [d] else leading c x.
Proof.
  intros c x d. induction x as [|e x IH]; [reflexivity|]. cbn [app leading forallb List.length]. destruct (char_eqb e c); [|reflexivity]. cbn [andb]. rewrite IH. destruct (forallb _ x); reflexivity.
Qed.
Lemma leading_all : forall c x, forallb (fun e => char_eqb e c) x = true -> leading c x = List.length x.
Proof. intros c x H. induction x as [|e x IH]; [reflexivity|]. cbn in *. apply andb_true_iff in H. destruct H as [-> H]. rewrite (IH H). reflexivity. Qed.
Lemma leading_pair : forall c x, Nat.Even (leading c x) -> Nat.Even (leading c ((x ++ [c]) ++ [c])).
Proof.
  intros c x H. rewrite (leading_snoc c (x ++ [c])), forallb_app, leading_snoc. cbn [forallb]. rewrite char_eqb_refl. destruct (forallb (fun e => char_eqb e c) x) eqn:F; [|exact H]. cbn [andb].
  rewrite (leading_all _ _ F) in H. destruct H as (m & H). exists (S m). rewrite app_length. cbn [leading List.length]. rewrite char_eqb_refl. lia.
Qed.
Lemma nn2_even : forall us a b, ~ In (escd c_nl) us -> nn2 us = a ++ raw c_nl :: b -> Nat.Even (leading c_nl (rev (chars a))).
Proof.
  intros us. unfold nn2. remember (List.length us) as n eqn:En. assert (L : List.length us <= n) by lia. clear En. revert us L.
  induction n as [|n IH]; intros us L a b N E; [destruct us; [destruct a; discriminate E|cbn in L; lia]|].
  destruct us as [|u us]; [destruct a; discriminate E|]. cbn [List.length] in L.
  assert (Nu : ~ In (escd c_nl) us) by (intros X; apply N; right; exact X).
  cbn [umark] in E. destruct (umatch [escd c_nl; escd c_nl] (u :: us)) eqn:M.
  - cbn [umatch] in M. apply andb_true_iff in M. destruct M as [M1 M2]. apply char_eqb_eq in M1. destruct us as [|v us]; [discriminate|]. cbn [follows] in M2.
    rewrite andb_true_r in M2. apply andb_true_iff in M2. destruct M2 as [_ M3]. apply char_eqb_eq in M3. destruct u as [eu cu], v as [ev cv]. cbn in M1, M3. subst cu cv.
    cbn [umark fst snd orb escd] in E. rewrite !orb_true_r in E. destruct a as [|p a]; [discriminate E|]. injection E as <- E. destruct a as [|p a]; [discriminate E|]. injection E as <- E.
    cbn [chars snd rev]. apply leading_pair. cbn [List.length] in L. apply (IH us ltac:(lia) a b); [|exact E]. intros X. apply Nu. right. exact X.
  - destruct a as [|p a]; [exists 0; reflexivity|]. injection E as <- E. pose proof (IH us ltac:(lia) a b Nu E) as Ev. cbn [chars rev]. rewrite leading_snoc.
    destruct (forallb (fun e => char_eqb e c_nl) (rev (chars a))) eqn:F; [|exact Ev]. cbn [leading]. destruct (char_eqb (snd u) c_nl) eqn:Eu; [|rewrite Nat.add_0_r, <- (leading_all _ _ F); exact Ev].
    exfalso. apply char_eqb_eq in Eu. assert (H : exists v us', us = v :: us' /\ snd v = c_nl).
    { apply (f_equal chars) in E. rewrite umark_chars, chars_app in E. destruct us as [|v us]; [destruct (chars a); discriminate E|]. exists v, us. split; [reflexivity|]. cbn [chars raw snd] in E.
      destruct a as [|w a]; [injection E as E _; exact E|]. cbn [chars app] in E. injection E as E _. cbn [chars rev] in F. rewrite forallb_app in F. apply andb_true_iff in F. destruct F as [_ F]. cbn in F. rewrite andb_true_r in F.
      change (char_eqb (snd w) c_nl = true) in F. apply char_eqb_eq in F. congruence. }
    destruct H as (v & us' & -> & Hv). destruct v as [e d]. cbn in Hv. subst d. destruct e; [apply Nu; left; reflexivity|]. cbn [umatch follows escd fst snd] in M. rewrite Eu, char_eqb_refl in M. discriminate M.
Qed.
Lemma nn2_next : forall us a b, ~ In (escd c_nl) us -> nn2 us = a ++ raw c_nl :: b -> forall y, chars b <> c_nl :: y.
Proof.
  intros us. unfold nn2. remember (List.length us) as n eqn:En. assert (L : List.length us <= n) by lia. clear En. revert us L.
  induction n as [|n IH]; intros us L a b N E; [destruct us; [destruct a; discriminate E|cbn in L; lia]|].
  destruct us as [|u us]; [destruct a; discriminate E|]. cbn [List.length] in L.
  assert (Nu : ~ In (escd c_nl) us) by (intros X; apply N; right; exact X).
  cbn [umark] in E. destruct (umatch [escd c_nl; escd c_nl] (u :: us)) eqn:M.
  - cbn [umatch] in M. apply andb_true_iff in M. destruct M as [M1 M2]. apply char_eqb_eq in M1. destruct us as [|v us]; [discriminate|]. cbn [follows] in M2.
    rewrite andb_true_r in M2. apply andb_true_iff in M2. destruct M2 as [_ M3]. apply char_eqb_eq in M3. destruct u as [eu cu], v as [ev cv]. cbn in M1, M3. subst cu cv.
    cbn [umark fst snd orb escd] in E. rewrite !orb_true_r in E. destruct a as [|p a]; [discriminate E|]. injection E as <- E. destruct a as [|p a]; [discriminate E|]. injection E as <- E.
    cbn [List.length] in L. apply (IH us ltac:(lia) a b); [|exact E]. intros X. apply Nu. right. exact X.
  - destruct a as [|p a]; [|injection E as <- E; exact (IH us ltac:(lia) a b Nu E)]. injection E as -> E. intros y Y. rewrite <- E, umark_chars in Y. destruct us as [|[e d] us]; [discriminate Y|]. cbn [chars snd] in Y. injection Y as -> _.
    destruct e; [apply Nu; left; reflexivity|]. cbn in M. discriminate M.
Qed.
Lemma nn2_start : forall us, ~ In (escd c_nl) us -> leading c_nl (chars us) <> 1 -> forall r, nn2 us <> raw c_nl :: r.
Proof.
  intros us N H r E. unfold nn2 in E. destruct us as [|u us]; [discriminate E|]. cbn [umark] in E. destruct (umatch [escd c_nl; escd c_nl] (u :: us)) eqn:M.
  - injection E as E _. unfold raw, escd in E. cbn in E. rewrite orb_true_r in E. discriminate E.
  - injection E as -> _. apply H. cbn [chars raw snd leading]. rewrite char_eqb_refl. destruct us as [|[e d] us]; [reflexivity|]. cbn [chars snd leading]. destruct (char_eqb d c_nl) eqn:Ed; [|reflexivity].
    apply char_eqb_eq in Ed. subst d. destruct e; [exfalso; apply N; right; left; reflexivity|]. cbn in M. discriminate M.
Qed.

Lemma bangs_left : forall us a b, bangs us = a ++ raw c_bang :: raw c_bang :: b -> exists a' u, a = a' ++ [u] /\ snd u = c_bang.
Proof. intros us a b E. destruct (two_left _ _ _ _ _ _ E) as (_ & _ & X). exact X. Qed.

Lemma fences_left : forall us a b, fences us = a ++ raw c_backtick :: raw c_backtick :: raw c_backtick :: b ->
  exists a' u, a = a' ++ [u] /\ snd u = c_backtick.
Proof.
  intros us a b E. destruct (umark_spec0 [escd c_backtick; raw c_backtick; raw c_backtick] us a _ ltac:(discriminate) E) as [M|M].
  - reflexivity.
  - apply marked_hd in M; [discriminate|reflexivity].
  - destruct M as (a' & u & v & b' & p & q & r & post & -> & Eb & Ep & H1 & H2 & H3). exists a', u. split; [reflexivity|].
    destruct r as [|? [|? [|? [|? ?]]]]; try discriminate; inversion Ep; subst; auto.
Qed.

Lemma markers_left : forall m us a b e, m <> c_nl -> markers m us <> a ++ (e, c_nl) :: raw m :: raw c_space :: b.
Proof.
  intros m us a b e Hm E. destruct (umark_spec0 [raw c_nl; escd m; raw c_space] us a _ ltac:(discriminate) E) as [M|M].
  - cbn. rewrite !char_eqb_refl. reflexivity.
  - apply marked_snd in M; [discriminate|reflexivity].
  - destruct M as (a' & u & v & b' & p & q & r & post & -> & Eb & Ep & H1 & H2 & H3). injection Eb as <- <-. cbn in H2.
    destruct r as [|? [|? [|? [|? ?]]]]; try discriminate; inversion Ep; subst; cbn in *; try congruence; discriminate.
Qed.

(** Rendering of the replacements. *)
Lemma nn_render : forall us, ~ In (escd c_nl) us -> replace nlnl esc_nlnl (render us) = render (nn us).
Proof.
  intros us N. apply (replace_render [escd c_nl; raw c_nl]); [|discriminate|].
  - intros d [<-|[<-|[]]]; discriminate.
  - intros q qs a b E _ ->. injection E as <- _. exfalso. apply N. apply in_or_app. right. left. reflexivity.
Qed.
Lemma nn2_render : forall us, ~ In (escd c_nl) us -> replace nlnl esc_nl_esc_nl (render us) = render (nn2 us).
Proof.
  intros us N. apply (replace_render [escd c_nl; escd c_nl]); [|discriminate|].
  - intros d [<-|[<-|[]]]; discriminate.
  - intros q qs a b E _ ->. injection E as <- _. exfalso. apply N. apply in_or_app. right. left. reflexivity.
Qed.
Lemma pp_render : forall us, ~ In (escd c_percent) us -> replace (s_ "%}") (c_bslash :: s_ "%}") (render us) = render (pp us).
Proof.
  intros us N. apply (replace_render [escd c_percent; raw c_rcurly]); [|discriminate|].
  - intros d [<-|[<-|[]]]; discriminate.
  - intros q qs a b E _ ->. injection E as <- _. exfalso. apply N. apply in_or_app. right. left. reflexivity.
Qed.
Lemma bangs_render : forall us, ~ In (escd c_bang) us -> replace (s_ "!!") (c_bslash :: s_ "!!") (render us) = render (bangs us).
Proof.
  intros us N. apply (replace_render [escd c_bang; raw c_bang]); [|discriminate|].
  - intros d [<-|[<-|[]]]; discriminate.
  - intros q qs a b E _ ->. injection E as <- _. exfalso. apply N. apply in_or_app. right. left. reflexivity.
Qed.
Lemma fences_render : forall us, ~ In (escd c_backtick) us -> replace (s_ "```") (c_bslash :: s_ "```") (render us) = render (fences us).
Proof.
  intros us N. apply (replace_render [escd c_backtick; raw c_backtick; raw c_backtick]); [|discriminate|].
  - intros d [<-|[<-|[<-|[]]]]; discriminate.
  - intros q qs a b E _ ->. injection E as <- _. exfalso. apply N. apply in_or_app. right. left. reflexivity.
Qed.
Lemma stars_render : forall us, ~ In (escd c_star) us \/ absent c_star us -> replace (s_ "**") (c_bslash :: s_ "**") (render us) = render (stars us).
Proof.
  intros us N. apply (replace_render [escd c_star; raw c_star]); [|discriminate|].
  - intros d [<-|[<-|[]]]; discriminate.
  - intros q qs a b E _ ->. injection E as <- <-. destruct N as [N|N].
    + exfalso. apply N. apply in_or_app. right. left. reflexivity.
    + destruct b as [|[[] c] b]; [reflexivity|reflexivity|]. cbn [follows raw fst snd negb andb]. rewrite andb_true_r. destruct (char_eqb c_star c) eqn:E; [|reflexivity].
      apply char_eqb_eq in E. subst c. exfalso. apply N. apply in_or_app. right. right. left. reflexivity.
Qed.
Lemma markers_render : forall m us, m <> c_bslash ->
  replace (nl ++ [m] ++ s_ " ") (nl ++ [c_bslash] ++ [m] ++ s_ " ") (render us) = render (markers m us).
Proof.
  intros m us H. apply (replace_render [raw c_nl; escd m; raw c_space]); [|discriminate|].
  - intros d [<-|[<-|[<-|[]]]]; [discriminate|exact H|discriminate].
  - intros q qs a b E E' _. injection E as <- _. discriminate.
Qed.
Lemma stars_absent : forall us, absent c_star us -> stars us = us.
Proof.
  unfold stars. induction us as [|u us IH]; intros H; [reflexivity|]. cbn [umark]. 
  replace (umatch [escd c_star; raw c_star] (u :: us)) with false.
  - rewrite IH; [reflexivity|]. intros Hi. apply H. right. exact Hi.
  - cbn [umatch]. destruct us as [|[[] c] us]; cbn [follows raw fst snd negb andb]; rewrite ?andb_false_r; try reflexivity.
    destruct (char_eqb c_star c) eqn:E; [|rewrite andb_false_r; reflexivity].
    apply char_eqb_eq in E. subst c. exfalso. apply H. right. left. reflexivity.
Qed.
