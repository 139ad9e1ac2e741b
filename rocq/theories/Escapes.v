(** [Display] writes what the specification says. *)
From Coq Require Import String.
From Verif Require Import Base LexProofs LexFacts Ast EscapeSpec.
Open Scope list_scope.

(** ** [str::replace] *)

Lemma starts_with_split : forall p s, starts_with p s = true -> exists y, s = p ++ y.
Proof.
  induction p as [|c p IH]; intros s H; [exists s; reflexivity|]. destruct s as [|d s]; [discriminate H|]. cbn in H. apply andb_prop in H. destruct H as [H1 H2].
  apply char_eqb_eq in H1. subst d. destruct (IH _ H2) as (y & ->). exists y. reflexivity.
Qed.
Lemma starts_with_app : forall p y, starts_with p (p ++ y) = true.
Proof. induction p as [|c p IH]; intros y; [reflexivity|]. cbn. rewrite IH, andb_true_r. apply char_eqb_eq. reflexivity. Qed.
Lemma replace_skip : forall p r x y, replace_go p r (length x) (x ++ y) = replace_go p r 0 y.
Proof. intros p r. induction x as [|c x IH]; intros y; [destruct y; reflexivity|]. cbn. apply IH. Qed.
Lemma replace_hit : forall p r y, p <> [] -> replace p r (p ++ y) = r ++ replace p r y.
Proof.
  intros [|c p] r y N; [congruence|]. unfold replace. cbn [app replace_go]. change (c :: p ++ y) with ((c :: p) ++ y). rewrite starts_with_app.
  f_equal. cbn [length]. rewrite Nat.sub_succ, Nat.sub_0_r. apply replace_skip.
Qed.
Lemma replace_miss : forall p r c y, (forall z, c :: y <> p ++ z) -> replace p r (c :: y) = c :: replace p r y.
Proof.
  intros p r c y N. unfold replace. cbn [replace_go]. destruct (starts_with p (c :: y)) eqn:E; [|reflexivity].
  apply starts_with_split in E. destruct E as (z & E). destruct (N z E).
Qed.
(** Text without the first character of the pattern. *)
Lemma replace_over : forall d p r a y, ~ In d a -> replace (d :: p) r (a ++ y) = a ++ replace (d :: p) r y.
Proof.
  intros d p r. induction a as [|c a IH]; intros y N; [reflexivity|]. cbn [app]. rewrite replace_miss; [f_equal; apply IH; intros H; apply N; right; exact H|].
  intros z E. injection E as E _. apply N. left. exact E.
Qed.
Lemma replace_written : forall p r x, p <> [] -> written [] [(p, r)] x (replace p r x).
Proof.
  intros p r x N. remember (length x) as n eqn:L. revert x L. induction n as [n IH] using lt_wf_ind. intros x L. destruct x as [|c x]; [constructor|].
  destruct (starts_with p (c :: x)) eqn:E.
  - apply starts_with_split in E. destruct E as (y & E). rewrite E, replace_hit by exact N. apply w_pattern; [left; reflexivity|]. apply (IH (length y)); [|reflexivity].
    subst n. rewrite E, app_length. destruct p; [congruence|cbn; lia].
  - assert (M : forall z, c :: x <> p ++ z) by (intros z Z; rewrite Z, starts_with_app in E; discriminate).
    rewrite replace_miss by exact M. apply w_keep; [intros []| |].
    + intros q s y [H|[]]. injection H as <- <-. apply M.
    + apply (IH (length x)); [subst n; cbn; lia|reflexivity].
Qed.

(** ** Adding a character or a pattern *)

Lemma write_bslash : forall x, written [c_bslash] [] x (esc_char c_bslash x).
Proof.
  induction x as [|c x IH]; [constructor|]. unfold esc_char in *. destruct (char_eqb c c_bslash) eqn:E.
  - apply char_eqb_eq in E. subst c. change (c_bslash :: x) with ([c_bslash] ++ x). rewrite replace_hit by discriminate. apply w_char; [left; reflexivity|exact IH].
  - assert (N : c <> c_bslash) by (intros ->; vm_compute in E; discriminate). rewrite replace_miss by (intros z Z; injection Z as Z _; contradiction).
    apply w_keep; [intros [H|[]]; congruence|intros ? ? ? []|exact IH].
Qed.

Lemma write_char : forall c cs ps x y, c <> c_bslash -> ~ In c cs -> (forall p r, In (p, r) ps -> p <> [] /\ ~ In c p /\ ~ In c r) ->
  written cs ps x y -> written (c :: cs) ps x (esc_char c y).
Proof.
  intros c cs ps x y Nb Nc P W. unfold esc_char. induction W as [|d x w I W IH|p r x w I W IH|d x w I K W IH].
  - constructor.
  - change (c_bslash :: d :: w) with ([c_bslash; d] ++ w). rewrite replace_over.
    + apply w_char; [right; exact I|exact IH].
    + intros [H|[H|[]]]; [congruence|subst d; contradiction].
  - rewrite replace_over by (apply (P p r I)). apply w_pattern; assumption.
  - destruct (N.eq_dec d c) as [->|N].
    + change (c :: w) with ([c] ++ w). rewrite replace_hit by discriminate. apply w_char; [left; reflexivity|exact IH].
    + rewrite replace_miss by (intros z Z; injection Z as Z _; contradiction). apply w_keep; [intros [H|H]; [congruence|contradiction]|exact K|exact IH].
Qed.

Section Pattern.
Variables (cs : list char) (ps : list (str * str)) (p : str).
Hypothesis Pb : ~ In c_bslash p.
Hypothesis Pc : forall c, In c p -> ~ In c cs.
Hypothesis Pp : forall q r, In (q, r) ps -> q <> [] /\ r <> [] /\ forall c, In c p -> ~ In c q /\ ~ In c r.

Lemma write_prefix : forall a x y, incl a p -> written cs ps (a ++ x) y -> exists v, y = a ++ v /\ written cs ps x v.
Proof using Pb Pc Pp.
  induction a as [|c a IH]; intros x y S W; [exists y; split; [reflexivity|exact W]|]. cbn [app] in W.
  inversion W as [|d x' w I W' E1 E2|q r x' w I W' E1 E2|d x' w I K W' E1 E2]; subst.
  - destruct (Pc c (S c (or_introl eq_refl)) I).
  - destruct (Pp q r I) as (Nq & _ & D). destruct q as [|d q]; [congruence|]. injection E1 as -> _. destruct (proj1 (D c (S c (or_introl eq_refl))) (or_introl eq_refl)).
  - destruct (IH x w (fun z H => S z (or_intror H)) W') as (v & -> & V). exists v. split; [reflexivity|exact V].
Qed.
Lemma unwrite_prefix : forall a x y, incl a p -> written cs ps x (a ++ y) -> exists v, x = a ++ v /\ written cs ps v y.
Proof using Pb Pc Pp.
  induction a as [|c a IH]; intros x y S W; [exists x; split; [reflexivity|exact W]|]. cbn [app] in W.
  inversion W as [|d x' w I W' E1 E2|q r x' w I W' E1 E2|d x' w I K W' E1 E2]; subst.
  - destruct (Pb (S c_bslash (or_introl eq_refl))).
  - destruct (Pp q r I) as (_ & Nr & D). destruct r as [|d r]; [congruence|]. injection E2 as -> _. destruct (proj2 (D c (S c (or_introl eq_refl))) (or_introl eq_refl)).
  - destruct (IH x' y (fun z H => S z (or_intror H)) W') as (v & -> & V). exists v. split; [reflexivity|exact V].
Qed.

Lemma write_pattern : forall r x y, p <> [] -> written cs ps x y -> written cs (ps ++ [(p, r)]) x (replace p r y).
Proof using Pb Pc Pp.
  intros r x y NE. remember (length x) as n eqn:L. revert x y L. induction n as [n IH] using lt_wf_ind. intros x y L W.
  assert (H0 : exists d p0, p = d :: p0) by (destruct p; [congruence|eauto]). destruct H0 as (d & p0 & Ep).
  assert (Id : In d p) by (rewrite Ep; left; reflexivity).
  inversion W as [|c x' w I W' E1 E2|q s x' w I W' E1 E2|c x' w I K W' E1 E2]; subst x y.
  - constructor.
  - change (c_bslash :: c :: w) with ([c_bslash; c] ++ w). rewrite Ep, replace_over.
    + rewrite <- Ep. apply w_char; [exact I|]. apply (IH (length x')); [subst n; cbn; lia|reflexivity|exact W'].
    + intros [H|[H|[]]]; subst d; [contradiction|]. exact (Pc c Id I).
  - destruct (Pp q s I) as (Nq & _ & D). rewrite Ep, replace_over by (apply (D d Id)). rewrite <- Ep.
    apply w_pattern; [apply in_or_app; left; exact I|]. apply (IH (length x')); [|reflexivity|exact W'].
    subst n. rewrite app_length. destruct q; [congruence|cbn; lia].
  - destruct (starts_with p (c :: w)) eqn:E.
    + apply starts_with_split in E. destruct E as (z & E). rewrite E in W |- *. rewrite replace_hit by exact NE.
      destruct (unwrite_prefix p _ z (fun _ H => H) W) as (v & Ev & V). rewrite Ev in L |- *. apply w_pattern; [apply in_or_app; right; left; reflexivity|].
      apply (IH (length v)); [|reflexivity|exact V]. subst n. rewrite app_length, Ep. cbn. lia.
    + rewrite replace_miss by (intros z Z; rewrite Z, starts_with_app in E; discriminate). apply w_keep; [exact I| |].
      * intros q s z H. apply in_app_or in H. destruct H as [H|[H|[]]]; [exact (K q s z H)|]. injection H as <- <-. intros Z. rewrite Z in W.
        destruct (write_prefix p z _ (fun _ H => H) W) as (v & Ev & _). rewrite Ev, starts_with_app in E. discriminate.
      * apply (IH (length x')); [subst n; cbn; lia|reflexivity|exact W'].
Qed.
End Pattern.

(** The order of the characters does not matter. *)
Lemma write_perm : forall cs cs' ps x w, (forall c, In c cs <-> In c cs') -> written cs ps x w -> written cs' ps x w.
Proof.
  intros cs cs' ps x w H W. induction W as [|c x w I W IH|p r x w I W IH|c x w I K W IH].
  - constructor.
  - apply w_char; [apply H; exact I|exact IH].
  - apply w_pattern; assumption.
  - apply w_keep; [rewrite <- H; exact I|exact K|exact IH].
Qed.

(** ** The texts of [Display] *)

Ltac notin := let H := fresh in intros H; vm_compute in H; repeat (destruct H as [H|H]; [discriminate H|]); exact H.
Ltac pats := let H := fresh in intros ? ? H; repeat (destruct H as [H|H]; [injection H as <- <-; repeat split; try discriminate; try notin|]); try contradiction H.
Ltac wr W t :=
  lazymatch t with
  | esc_char c_bslash ?x => pose proof (write_bslash x) as W
  | esc_char ?c ?y => let V := fresh in wr V y; assert (W := V); clear V; apply (write_char c) in W; [|discriminate|notin|pats]
  | replace ?p ?r ?y => let V := fresh in wr V y; assert (W := V); clear V;
      apply (fun Pb Pc Pp NE => write_pattern _ _ p Pb Pc Pp r _ _ NE) in W; [|notin| | |discriminate];
      [|let H := fresh in intros ? H; vm_compute in H; repeat (destruct H as [<-|H]; [notin|]); contradiction H
       |let H := fresh in intros ? ? H; repeat (destruct H as [H|H]; [injection H as <- <-; split; [discriminate|]; split; [discriminate|];
            let G := fresh in intros ? G; vm_compute in G; repeat (destruct G as [<-|G]; [split; notin|]); contradiction G|]); try contradiction H]
  end.
Ltac perm W := refine (write_perm _ _ _ _ _ _ W); intros ?; cbn [In app]; tauto.
Ltac wrote := match goal with |- written _ _ _ ?t => let W := fresh in wr W t; perm W end.

Lemma between_delim : forall c d x, c <> c_bslash -> c <> c_nl ->
  between d d [c] [blank1] x (d ++ replace nlnl esc_nlnl (esc_char c (esc_char c_bslash x)) ++ d).
Proof.
  intros c d x N1 N2. eexists. split; [|reflexivity]. pose proof (write_bslash x) as W.
  apply (write_char c) in W; [|exact N1|intros [H|[]]; congruence|intros ? ? []].
  apply (fun Pb Pc Pp NE => write_pattern _ _ nlnl Pb Pc Pp esc_nlnl _ _ NE) in W; [perm W|notin| |intros ? ? []|discriminate].
  intros e [<-|[<-|[]]] [H|[H|[]]]; congruence || discriminate H.
Qed.

Lemma link_written : forall t u, link_text [c_lsquare; c_rsquare] t u (display_anchor t u).
Proof. intros t u. eexists _, _. split; [|split; [|reflexivity]]; [wrote|wrote]. Qed.
Lemma image_written : forall i, image_text i (display_image i).
Proof.
  intros [t u]. eexists. split; [eexists _, _; split; [|split; [|reflexivity]]|reflexivity]; [wrote|wrote].
Qed.

Lemma replace_suffix : forall p r x d, (forall c, In c p -> ~ In c d) -> p <> [] -> replace p r (x ++ d) = replace p r x ++ d.
Proof.
  intros p r x d D NE. assert (H0 : exists e p0, p = e :: p0) by (destruct p; [congruence|eauto]). destruct H0 as (e & p0 & Ep).
  remember (length x) as n eqn:L. revert x L. induction n as [n IH] using lt_wf_ind. intros x L. destruct x as [|c x].
  - cbn [app]. rewrite <- (app_nil_r d) at 1. rewrite Ep, replace_over by (apply D; rewrite Ep; left; reflexivity). cbn. rewrite app_nil_r. reflexivity.
  - destruct (starts_with p (c :: x)) eqn:E.
    + apply starts_with_split in E. destruct E as (y & E). rewrite E, <- app_assoc, !replace_hit by exact NE. rewrite <- app_assoc. f_equal.
      apply (IH (length y)); [|reflexivity]. subst n. rewrite E, app_length, Ep. cbn. lia.
    + cbn [app]. rewrite !replace_miss; [cbn [app]; f_equal; apply (IH (length x)); [subst n; cbn; lia|reflexivity]| |].
      * intros z Z. rewrite Z, starts_with_app in E. discriminate.
      * intros z Z. change (c :: x ++ d) with ((c :: x) ++ d) in Z.
        assert (C : (exists z', c :: x = p ++ z') \/ exists u v, p = (c :: x) ++ u :: v /\ In u d).
        { clear - Z D NE. revert p NE D Z. generalize (c :: x) as y. induction y as [|b y IH]; intros p NE D Z.
          - cbn in Z. destruct p as [|u v]; [congruence|]. right. exists u, v. split; [reflexivity|]. rewrite Z. left. reflexivity.
          - destruct p as [|u p]; [left; exists (b :: y); reflexivity|]. injection Z as -> Z. destruct p as [|u' p]; [left; exists y; reflexivity|].
            destruct (IH (u' :: p)) as [(z' & E)|(u1 & v & E & I)]; [discriminate|intros e H; apply D; right; exact H|exact Z| |].
            + left. exists z'. cbn in *. rewrite E. reflexivity.
            + right. exists u1, v. split; [cbn; rewrite E; reflexivity|exact I]. }
        destruct C as [(z' & C)|(u & v & C & I)]; [rewrite C, starts_with_app in E; discriminate|].
        apply (D u); [rewrite C; apply in_or_app; right; left; reflexivity|exact I].
Qed.

Lemma bold_written : forall b, bold_text b (replace (s_ "**") (c_bslash :: s_ "**") (display_bold_node b)).
Proof.
  intros [x|x|x]; cbn [display_bold_node bold_text].
  - eexists. split; [|change (s_ "**") with (c_star :: s_ "*"); unfold display_italic; rewrite replace_over, replace_suffix; [reflexivity|..]].
    + wrote.
    + intros c [<-|[<-|[]]]; notin.
    + discriminate.
    + notin.
  - eexists. split; [|change (s_ "**") with (c_star :: s_ "*"); unfold display_strike; rewrite replace_over, replace_suffix; [reflexivity|..]].
    + wrote.
    + intros c [<-|[<-|[]]]; notin.
    + discriminate.
    + notin.
  - match goal with |- written ?cs ?ps _ (replace _ _ ?t) => assert (W : written cs ps x t) by wrote end.
    change (s_ "**") with [c_star; c_star].
    assert (R : forall p0, replace [c_star; c_star] p0 (replace nlnl esc_nlnl (esc_char c_tilde (esc_char c_underscore (esc_char c_star (esc_char c_bslash x)))))
      = replace nlnl esc_nlnl (esc_char c_tilde (esc_char c_underscore (esc_char c_star (esc_char c_bslash x))))).
    { intros p0. revert W. generalize (replace nlnl esc_nlnl (esc_char c_tilde (esc_char c_underscore (esc_char c_star (esc_char c_bslash x))))) as w. intros w W.
      assert (H : (forall z, w <> c_star :: z) /\ replace [c_star; c_star] p0 w = w); [|apply H].
      induction W as [|c x w J W [H1 H2]|q s x w J W [H1 H2]|c x w J K W [H1 H2]].
      - split; [discriminate|reflexivity].
      - split; [discriminate|]. change (c_bslash :: c :: w) with ([c_bslash] ++ c :: w). rewrite replace_over by notin. cbn [app]. f_equal.
        rewrite replace_miss; [congruence|]. intros z Z. injection Z as _ Z. exact (H1 _ Z).
      - destruct J as [J|[]]. injection J as <- <-. split; [discriminate|]. rewrite replace_over by notin. congruence.
      - assert (c <> c_star) by (intros ->; apply J; cbn; tauto). split; [congruence|]. rewrite replace_miss; [congruence|]. intros z Z. injection Z as Z _. congruence. }
    rewrite R. exact W.
Qed.

Lemma map_written : forall {A} (f : A -> str) (P : A -> str -> Prop) l, (forall x, P x (f x)) -> Forall2 P l (map f l).
Proof. intros A f P l H. induction l as [|x l IH]; constructor; auto. Qed.
Lemma join_separated : forall sep l, separated sep l (join sep l).
Proof. intros sep l. induction l as [|x l IH]; [constructor|]. destruct l as [|y l]; [constructor|]. exact (sep_more sep x y l _ IH). Qed.

Lemma par_written : forall p, par_text p (display_par_node p).
Proof.
  intros [t u|l|x|x|x|x|x]; cbn [par_text display_par_node].
  - apply link_written.
  - unfold display_bold. destruct (bold_has_content l) eqn:E.
    + right. split.
      * intros F. unfold bold_has_content in E. apply existsb_exists in E. destruct E as (b & I & E). rewrite (proj1 (Forall_forall _ _) F b I) in E. discriminate.
      * eexists. split; [apply (map_written (fun b => replace (s_ "**") (c_bslash :: s_ "**") (display_bold_node b))); apply bold_written|]. rewrite flat_map_concat_map. reflexivity.
    + left. split; [|reflexivity]. apply Forall_forall. intros b I. unfold bold_has_content in E.
      destruct b as [x|x|[|c x]]; try reflexivity; exfalso; (assert (T : true = false); [rewrite <- E; symmetry; apply existsb_exists; eexists; split; [exact I|reflexivity]|discriminate T]).
  - apply between_delim; discriminate.
  - apply between_delim; discriminate.
  - unfold display_text; wrote.
  - destruct x as [|c x]; [reflexivity|]. apply between_delim; discriminate.
  - apply between_delim; discriminate.
Qed.
Lemma pars_written : forall l, pars_text l (display_paragraph l).
Proof. intros l. eexists. split; [apply (map_written display_par_node); apply par_written|]. apply flat_map_concat_map. Qed.
Lemma head_written : forall h, head_text h (display_head_node h).
Proof. intros [x|t u]; [cbn [display_head_node head_text]; wrote|apply link_written]. Qed.

Lemma led_written : forall w, led w (escape_leading_block_marker w).
Proof.
  intros w. unfold escape_leading_block_marker.
  destruct (starts_with (s_ "- ") w || starts_with (s_ "+ ") w || starts_with (s_ "# ") w || starts_with (s_ "!!") w || starts_with (s_ "---") w) eqn:E; [left|right]; (split; [|reflexivity]).
  - repeat (apply orb_prop in E; destruct E as [E|E]); apply starts_with_split in E; destruct E as (r & E); eexists _, r; (split; [|exact E]); cbn [In]; tauto.
  - intros (m & r & I & ->). repeat (apply orb_false_elim in E; let H := fresh in destruct E as [E H]).
    repeat (destruct I as [<-|I]; [match goal with H : starts_with ?p _ = false |- _ => rewrite (starts_with_app p) in H; discriminate H end|]). contradiction.
Qed.

Lemma list_written : forall l, list_text l (display_list l).
Proof.
  fix IH 1. intros [ty level items]. cbn [display_list]. econstructor; [|apply join_separated].
  induction items as [|it items IHi]; constructor; [|exact IHi]. clear IHi. destruct it as [l [n|]]; cbn [display_item].
  - apply (it_nested ty level l (flat_map display_par_node l) n (display_list n)).
    + apply pars_written.
    + apply IH.
    + destruct ty; apply replace_written; discriminate.
  - apply (it_leaf ty level l (flat_map display_par_node l)).
    + apply pars_written.
    + destruct ty; apply replace_written; discriminate.
Qed.

Lemma option_bslash : forall l r o, option_text l r o (match o with None => [] | Some x => l ++ esc_char c_bslash x ++ r end).
Proof. intros l r [x|]; [|reflexivity]. eexists. split; [apply write_bslash|reflexivity]. Qed.

Lemma block_written : forall y, block_text y (display_block y).
Proof.
  fix IH 1. intros [l|k l|i|l|lang code|l|t i ps| |k a|t b]; cbn [display_block display_node].
  - econstructor; [apply pars_written|apply led_written].
  - unfold display_heading. rewrite flat_map_concat_map. constructor. apply map_written. apply head_written.
  - constructor. apply image_written.
  - econstructor; [apply (map_written display_image); apply image_written|apply join_separated].
  - constructor; [wrote|wrote].
  - constructor. apply list_written.
  - unfold display_highlight.
    assert (A : option_text (s_ " ") [] t (match t with None => [] | Some t => s_ " " ++ esc_char c_bslash t end)).
    { pose proof (option_bslash (s_ " ") [] t) as O. destruct t as [t|]; [|exact O]. rewrite app_nil_r in O. exact O. }
    assert (B : option_text (s_ "! ") nl i (match i with None => [] | Some t => s_ "! " ++ esc_char c_bslash t ++ nl end)).
    { pose proof (option_bslash (s_ "! ") nl i) as O. destruct i as [i|]; exact O. }
    apply (bt_highlight t i ps _ _ (map (fun p => escape_leading_block_marker (replace (s_ "!!") (c_bslash :: s_ "!!") (display_paragraph p))) ps) _ A B); [|apply join_separated].
    apply map_written. intros p. eexists _, _. split; [apply pars_written|]. split; [apply replace_written; discriminate|apply led_written].
  - constructor.
  - constructor; [wrote|wrote].
  - apply (bt_collapsible t b _ (map display_block b)); [wrote| |apply join_separated].
    induction b as [|y b IHb]; constructor; [apply IH|exact IHb].
Qed.

Lemma document_written : forall y, document_text y (display_yamd y).
Proof.
  intros [m b]. unfold document_text, display_yamd. cbn [metadata body].
  assert (B : Forall2 block_text b (map display_block b)) by (apply map_written; apply block_written).
  destruct m as [m|].
  - eexists _, _, _. split; [|split; [exact B|split; [apply join_separated|]]].
    2:{ unfold display_body. rewrite !app_assoc. reflexivity. }
    exists (m ++ (if ends_with_char c_nl m then [] else nl)). split; [|rewrite <- !app_assoc; reflexivity].
    unfold ends_with_char. destruct (rev m) as [|c r] eqn:E.
    + right. split; [|reflexivity]. intros (a & ->). rewrite rev_app_distr in E. discriminate.
    + apply (f_equal (@rev char)) in E. rewrite rev_involutive in E. cbn in E.
      destruct (char_eqb c_nl c) eqn:C.
      * left. apply char_eqb_eq in C. subst c. split; [exists (rev r); exact E|apply app_nil_r].
      * right. split; [|reflexivity]. intros (a & A). rewrite E in A. apply app_inj_tail in A. destruct A as [_ ->]. vm_compute in C. discriminate.
  - exists [], (map display_block b), (display_body b). split; [reflexivity|]. split; [exact B|]. split; [apply join_separated|reflexivity].
Qed.

(** ** The specification determines the text *)

Definition clear (cs : list char) (ps : list (str * str)) : Prop :=
  forall p r, In (p, r) ps -> exists c a, p = c :: a /\ ~ In c cs /\ forall q s b, In (q, s) ps -> q = c :: b -> q = p /\ s = r.
Lemma written_unique : forall cs ps, clear cs ps -> forall x w w', written cs ps x w -> written cs ps x w' -> w = w'.
Proof.
  intros cs ps C x w w' W. revert w'. induction W as [|c x w I W IH|p r x w I W IH|c x w I K W IH]; intros w' V.
  - inversion V as [| |q s x' v I' V' E|]; subst; [reflexivity|]. destruct (C q s I') as (c & a & -> & _). discriminate.
  - inversion V as [|c' x' v I' V'|q s x' v I' V' E|c' x' v I' K' V']; subst.
    + f_equal. f_equal. apply IH. exact V'.
    + destruct (C q s I') as (d & a & -> & N & _). injection E as -> _. contradiction.
    + contradiction.
  - destruct (C p r I) as (c & a & -> & N & U). remember ((c :: a) ++ x) as y eqn:Y. inversion V as [E|d x' v I' V' E|q s x' v I' V' E|d x' v I' K' V' E]; subst y.
    + discriminate.
    + injection E as -> _. contradiction.
    + destruct (C q s I') as (d & b & -> & _ & _). assert (d = c) by (injection E as -> _; reflexivity). subst d. destruct (U _ _ b I' eq_refl) as [Eq ->]. injection Eq as ->.
      f_equal. apply IH. apply (app_inv_head (c :: a)) in E. subst x'. exact V'.
    + exfalso. apply (K' (c :: a) r x I). exact E.
  - inversion V as [|c' x' v I' V'|q s x' v I' V' E|c' x' v I' K' V']; subst.
    + contradiction.
    + exfalso. apply (K q s x' I'). symmetry. exact E.
    + f_equal. apply IH. exact V'.
Qed.

Ltac clears := let Hc := fresh in intros ? ? Hc; vm_compute in Hc; repeat (destruct Hc as [Hc|Hc]; [injection Hc as <- <-; eexists _, _; split; [reflexivity|]; split; [notin|];
   let H := fresh in let E := fresh in intros ? ? ? H E; vm_compute in H; repeat (destruct H as [H|H]; [injection H as <- <-; first [discriminate E|split; reflexivity]|]); contradiction|]); contradiction.
Ltac uniq := match goal with W : written ?cs ?ps ?x ?a, V : written ?cs ?ps ?x ?b |- _ =>
  assert (b = a) by (apply (written_unique cs ps ltac:(clears) x); assumption); subst b; clear V end.

Lemma between_unique : forall l r cs ps x w w', clear (c_bslash :: cs) ps -> between l r cs ps x w -> between l r cs ps x w' -> w = w'.
Proof. intros l r cs ps x w w' C (u & U & ->) (v & V & ->). rewrite (written_unique _ _ C _ _ _ U V). reflexivity. Qed.
Lemma link_unique : forall t u w w', link_text [c_lsquare; c_rsquare] t u w -> link_text [c_lsquare; c_rsquare] t u w' -> w = w'.
Proof. intros t u w w' (a & b & A & B & ->) (a' & b' & A' & B' & ->). do 2 uniq. reflexivity. Qed.
Lemma image_unique : forall i w w', image_text i w -> image_text i w' -> w = w'.
Proof. intros i w w' (v & (a & b & A & B & ->) & ->) (v' & (a' & b' & A' & B' & ->) & ->). do 2 uniq. reflexivity. Qed.
Lemma bold_unique : forall b w w', bold_text b w -> bold_text b w' -> w = w'.
Proof. intros [x|x|x] w w'; cbn [bold_text]; intros A B; [refine (between_unique _ _ _ _ _ _ _ _ A B); clears|refine (between_unique _ _ _ _ _ _ _ _ A B); clears|uniq; reflexivity]. Qed.
Lemma Forall2_unique : forall {A} (P : A -> str -> Prop) l, (forall x w w', In x l -> P x w -> P x w' -> w = w') -> forall ws ws', Forall2 P l ws -> Forall2 P l ws' -> ws = ws'.
Proof.
  intros A P l. induction l as [|x l IH]; intros U ws ws' F G; inversion F; inversion G; subst; [reflexivity|]. f_equal; [eapply U; [left; reflexivity|eassumption|eassumption]|].
  apply IH; [|assumption|assumption]. intros z w w' I. apply U. right. exact I.
Qed.
Lemma separated_unique : forall sep l w w', separated sep l w -> separated sep l w' -> w = w'.
Proof. intros sep l w w' S. revert w'. induction S as [|x|x y l w S IH]; intros w' T; inversion T; subst; [reflexivity|reflexivity|]. rewrite (IH _ ltac:(eassumption)). reflexivity. Qed.
Lemma par_unique : forall p w w', par_text p w -> par_text p w' -> w = w'.
Proof.
  intros [t u|l|x|x|x|x|x] w w'; cbn [par_text]; intros A B.
  - exact (link_unique _ _ _ _ A B).
  - destruct A as [[F ->]|[F (ws & A & ->)]], B as [[G ->]|[G (vs & B & ->)]]; try contradiction; [reflexivity|].
    rewrite (Forall2_unique bold_text l (fun b w w' _ => bold_unique b w w') _ _ A B). reflexivity.
  - refine (between_unique _ _ _ _ _ _ _ _ A B); clears.
  - refine (between_unique _ _ _ _ _ _ _ _ A B); clears.
  - uniq. reflexivity.
  - destruct x; [congruence|]. refine (between_unique _ _ _ _ _ _ _ _ A B); clears.
  - refine (between_unique _ _ _ _ _ _ _ _ A B); clears.
Qed.
Lemma pars_unique : forall l w w', pars_text l w -> pars_text l w' -> w = w'.
Proof. intros l w w' (ws & A & ->) (vs & B & ->). rewrite (Forall2_unique par_text l (fun b w w' _ => par_unique b w w') _ _ A B). reflexivity. Qed.
Lemma head_unique : forall p w w', head_text p w -> head_text p w' -> w = w'.
Proof. intros [x|t u] w w'; cbn [head_text]; intros A B; [uniq; reflexivity|exact (link_unique _ _ _ _ A B)]. Qed.
Lemma led_unique : forall u w w', led u w -> led u w' -> w = w'.
Proof. intros u w w' [[A ->]|[A ->]] [[B ->]|[B ->]]; try contradiction; reflexivity. Qed.
Lemma hpar_unique : forall p w w', hpar_text p w -> hpar_text p w' -> w = w'.
Proof. intros p w w' (u & v & A & B & C) (u' & v' & A' & B' & C'). rewrite (pars_unique _ _ _ A A') in *. uniq. exact (led_unique _ _ _ C C'). Qed.
Lemma option_unique : forall l r o w w', option_text l r o w -> option_text l r o w' -> w = w'.
Proof. intros l r [x|] w w'; cbn [option_text]; [|congruence]. apply between_unique. clears. Qed.
Lemma marks_clear : forall ty r, clear [] [(nl ++ list_mark ty ++ s_ " ", r)].
Proof.
  intros ty r p s [H|[]]. injection H as <- <-. eexists c_nl, _. split; [reflexivity|]. split; [intros []|]. intros q t b [H|[]] _. injection H as <- <-. split; reflexivity.
Qed.
Lemma list_unique : forall l w w', list_text l w -> list_text l w' -> w = w'.
Proof.
  fix IH 1. intros [ty level items] w w' A B. inversion A as [? ? ? ws ? FA SA]; inversion B as [? ? ? vs ? FB SB]; subst. clear A B.
  assert (E : ws = vs); [|subst vs; exact (separated_unique _ _ _ _ SA SB)]. clear SA SB w w'.
  revert ws vs FA FB. induction items as [|it items IHi]; intros ws vs FA FB; inversion FA as [|? a ? ws' HA FA']; inversion FB as [|? b ? vs' HB FB']; subst; [reflexivity|].
  f_equal; [|apply IHi; assumption]. clear IHi FA FB FA' FB'. destruct it as [l [n|]].
  - inversion HA as [|? ? ? v ? u r A1 A2 A3]; inversion HB as [|? ? ? v' ? u' r' B1 B2 B3]; subst.
    rewrite (IH n _ _ B2 A2) in B3. rewrite (pars_unique _ _ _ B1 A1) in B3. rewrite (written_unique _ _ (marks_clear ty _) _ _ _ A3 B3). reflexivity.
  - inversion HA as [? ? ? v r A1 A3|]; inversion HB as [? ? ? v' r' B1 B3|]; subst.
    rewrite (pars_unique _ _ _ B1 A1) in B3. rewrite (written_unique _ _ (marks_clear ty _) _ _ _ A3 B3). reflexivity.
Qed.
Lemma block_unique : forall y w w', block_text y w -> block_text y w' -> w = w'.
Proof.
  fix IH 1. intros [l|k l|i|l|lang code|l|t i ps| |k a|t b] w w' A B.
  - inversion A as [? u ? A1 A2| | | | | | | | |]; inversion B as [? v ? B1 B2| | | | | | | | |]; subst. rewrite (pars_unique _ _ _ B1 A1) in B2. exact (led_unique _ _ _ A2 B2).
  - inversion A as [|? ? ws A1| | | | | | | |]; inversion B as [|? ? vs B1| | | | | | | |]; subst. rewrite (Forall2_unique head_text l (fun b w w' _ => head_unique b w w') _ _ A1 B1). reflexivity.
  - inversion A; inversion B; subst. eapply image_unique; eassumption.
  - inversion A as [| | |? ws ? A1 A2| | | | | |]; inversion B as [| | |? vs ? B1 B2| | | | | |]; subst. rewrite (Forall2_unique image_text l (fun b w w' _ => image_unique b w w') _ _ B1 A1) in B2. exact (separated_unique _ _ _ _ A2 B2).
  - inversion A; inversion B; subst. do 2 uniq. reflexivity.
  - inversion A; inversion B; subst. eapply list_unique; eassumption.
  - inversion A as [| | | | | |? ? ? a b ws u A1 A2 A3 A4| | |]; inversion B as [| | | | | |? ? ? a' b' vs u' B1 B2 B3 B4| | |]; subst.
    rewrite (option_unique _ _ _ _ _ B1 A1), (option_unique _ _ _ _ _ B2 A2). rewrite (Forall2_unique hpar_text ps (fun b w w' _ => hpar_unique b w w') _ _ B3 A3) in B4.
    rewrite (separated_unique _ _ _ _ A4 B4). reflexivity.
  - inversion A; inversion B; subst. reflexivity.
  - inversion A; inversion B; subst. do 2 uniq. reflexivity.
  - inversion A as [| | | | | | | | |? ? a ws u A1 A2 A3]; inversion B as [| | | | | | | | |? ? a' vs u' B1 B2 B3]; subst. uniq.
    assert (E : ws = vs); [|subst vs; rewrite (separated_unique _ _ _ _ A3 B3); reflexivity]. clear A B A3 B3.
    revert ws vs A2 B2. induction b as [|y b IHb]; intros ws vs FA FB; inversion FA as [|? c ? ws' HA FA']; inversion FB as [|? d ? vs' HB FB']; subst; [reflexivity|].
    f_equal; [apply (IH y); assumption|apply IHb; assumption].
Qed.
Lemma document_unique : forall y w w', document_text y w -> document_text y w' -> w = w'.
Proof.
  intros [m b] w w' (a & ws & u & A1 & A2 & A3 & ->) (a' & vs & u' & B1 & B2 & B3 & ->). cbn [metadata body] in *.
  rewrite (Forall2_unique block_text b (fun b w w' _ => block_unique b w w') _ _ B2 A2) in B3. rewrite (separated_unique _ _ _ _ A3 B3). f_equal.
  destruct m as [m|]; [|congruence]. destruct A1 as (v & [[N ->]|[N ->]] & ->), B1 as (v' & [[M ->]|[M ->]] & ->); try contradiction; reflexivity.
Qed.

(** ** Without the backslashes it is the text again *)

Lemma written_unescape : forall cs ps x w, In c_bslash cs ->
  (forall p r, In (p, r) ps -> r = [c_bslash; c_nl; c_bslash; c_nl] /\ p = [c_nl; c_nl] \/ exists c a, p = c :: a /\ r = c_bslash :: p /\ ~ In c_bslash p) ->
  written cs ps x w -> forall z, unescape (w ++ z) = x ++ unescape z.
Proof.
  intros cs ps x w I P W z. induction W as [|c x w J W IH|p r x w J W IH|c x w J K W IH].
  - reflexivity.
  - cbn. rewrite IH. reflexivity.
  - rewrite <- !app_assoc, <- IH. destruct (P p r J) as [[-> ->]|(c & a & -> & -> & N)]; [reflexivity|]. cbn. f_equal.
    apply unescape_no_bslash. apply Forall_forall. intros d D. destruct (char_eqb d c_bslash) eqn:E; [|reflexivity]. apply char_eqb_eq in E. subst d. destruct N. right. exact D.
  - cbn [app unescape]. rewrite <- IH. destruct (char_eqb c c_bslash) eqn:E; [apply char_eqb_eq in E; subst c; contradiction|reflexivity].
Qed.
