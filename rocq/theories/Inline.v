(** Parsing inline content that is given as units: the parser finds exactly the nodes. *)
From Coq Require Import String.
From Verif Require Import Base Lexer LexSpec LexProofs LexFacts Ops Parser FParser TokFacts TreeAst Ast Units ULex Stops LinkUnits.

(** ** Seams and delimiters *)

Definition ends (c : char) (us : list uchar) : Prop := exists r, us = r ++ [raw c].
Lemma absent_ends : forall c us, absent c us -> ~ ends c us.
Proof. intros c us H (r & ->). apply H. apply in_app_iff. right. left. reflexivity. Qed.

Lemma raw_eq : forall (u : uchar) c, fst u = false -> snd u = c -> u = raw c.
Proof. intros [e d] c H1 H2. cbn in *. subst. reflexivity. Qed.

(** In front of a special character. *)
Lemma seam_special : forall A c B, special c = true -> c <> c_percent -> c <> c_rcurly -> ~ ends c A -> seam A (raw c :: B).
Proof.
  intros A c B Sc N1 N2 NE. destruct A as [|a0 A0]; [left; reflexivity|]. destruct (@exists_last _ (a0 :: A0)) as (A1 & a & E); [discriminate|]. rewrite E in *. clear E a0 A0.
  right. right. exists A1, a, (raw c), B. split; [reflexivity|]. split; [reflexivity|]. unfold joint. cbn [fst snd raw orb]. destruct (fst a) eqn:Fa; [exact Sc|].
  assert (Na : snd a <> c) by (intros Ha; apply NE; exists A1; rewrite (raw_eq a c Fa Ha); reflexivity).
  destruct (char_eqb (snd a) c_nl) eqn:En.
  { apply char_eqb_eq in En. apply negb_true_iff, N.eqb_neq. unfold char in *. congruence. }
  destruct (is_some (single_kind (snd a))); [reflexivity|]. destruct (is_some (run_kind (snd a)) && negb (char_eqb (snd a) c_space)).
  - apply andb_true_iff. split; [apply negb_true_iff, N.eqb_neq; exact Na|]. apply negb_true_iff. apply andb_false_iff. right. apply N.eqb_neq. exact N1.
  - rewrite Sc. cbn [andb]. apply negb_true_iff. apply andb_false_iff. right. apply N.eqb_neq. exact N2.
Qed.

(** After a delimiter character. *)
Lemma seam_delim : forall A c B, is_some (single_kind c) = true \/ (is_some (run_kind c) = true /\ c <> c_space /\ c <> c_lcurly /\ raw_at c B = false) ->
  c <> c_nl -> seam (A ++ [raw c]) B.
Proof.
  intros A c B H Nn. destruct B as [|b B]; [right; left; reflexivity|]. right. right. exists A, (raw c), b, B. split; [reflexivity|]. split; [reflexivity|].
  unfold joint. cbn [fst snd raw]. destruct (fst b) eqn:Fb; [reflexivity|]. cbn [orb].
  replace (char_eqb c c_nl) with false by (symmetry; apply N.eqb_neq; exact Nn).
  destruct H as [H|(H1 & H2 & H3 & H4)]; [rewrite H; reflexivity|]. destruct (is_some (single_kind c)); [reflexivity|].
  rewrite H1. replace (char_eqb c c_space) with false by (symmetry; apply N.eqb_neq; exact H2). replace (char_eqb c c_lcurly) with false by (symmetry; apply N.eqb_neq; exact H3).
  cbn [negb andb]. rewrite andb_true_r. cbn [raw_at] in H4. rewrite Fb in H4. cbn [negb andb] in H4. apply negb_true_iff. rewrite N.eqb_sym. exact H4.
Qed.

Lemma seam_nil_r : forall A, seam A [].
Proof. intros. right. left. reflexivity. Qed.

Lemma delim_run : forall c k n R, run_kind c = Some k -> c <> c_lcurly -> raw_at c R = false ->
  utok (repeat (raw c) (S n) ++ R) = Some (k, repeat (raw c) (S n), R).
Proof.
  intros c k n R K N H. rewrite (utok_lead c k (repeat (raw c) (S n) ++ R) n K); [rewrite skipn_repeat; reflexivity|apply lead_repeat; exact H|congruence].
Qed.
Lemma delim_single : forall c k R, single_kind c = Some k -> utok ([raw c] ++ R) = Some (k, [raw c], R).
Proof. intros c k R H. apply utok_single. exact H. Qed.

Lemma cov_delim : forall s b ts g R k, cov s b ts (g ++ R) -> utok (g ++ R) = Some (k, g, R) -> exists t ts',
  ts = t :: ts' /\ kind t = k /\ col0 t = b /\ ttext s t = chars g /\ tlen t = byte_len (chars g) /\ cov s (aft b g) ts' R.
Proof.
  intros s b ts g R k H U. pose proof (cov_fine _ _ _ _ H) as Hf. destruct (utok_ok _ _ _ _ Hf U) as (_ & NG & G).
  destruct (cov_step _ _ _ _ _ _ _ H U) as (t & ts' & E0 & E1 & E2 & E3 & E4 & E5). exists t, ts'. rewrite (group_aft k g b G NG). auto 10.
Qed.

(** Text between two delimiters. *)
Lemma fdelim_units : forall s st b ts nd io ic op us cl R ko kc c,
  cov s b ts (op ++ us ++ cl ++ R) -> utok (op ++ us ++ cl ++ R) = Some (ko, op, us ++ cl ++ R) -> utok (cl ++ R) = Some (kc, cl, R) ->
  (forall t, kind t = ko -> tlen t = byte_len (chars op) -> col0 t = b -> io t = true) ->
  (forall t, kind t = kc -> tlen t = byte_len (chars cl) -> ic t = true) ->
  (forall t, ic t = true -> kind_char (kind t) = Some c) -> absent c us -> seam us (cl ++ R) ->
  calm st (aft b op) (us ++ cl) R ->
  exists t ts1 t' ts2, ts = t :: ts1 ++ t' :: ts2 /\ fdelim nd io ic st ts = Some (Node nd [t] [Leaf ts1] [t'], ts2) /\ ttexts s ts1 = chars us
    /\ cov s (aft b (op ++ us ++ cl)) ts2 R.
Proof.
  intros s st b ts nd io ic op us cl R ko kc c H Uo Uc Ho Hc Hk Ha Hs Hcalm.
  destruct (cov_delim _ _ _ _ _ _ H Uo) as (t & ts' & -> & E1 & E2 & E3 & E4 & E5).
  apply calm_app in Hcalm. destruct Hcalm as [C1 C2].
  destruct (until_units s st ic us (aft b op) ts' (cl ++ R) E5 Hs C1) as (ts1 & ts2 & -> & F2 & F3 & F4).
  { intros A1 A2 u ts0 EA NA Cv. destruct (ic u) eqn:Q; [|reflexivity]. exfalso. refine (first_in _ _ _ _ _ _ c Cv NA _ (Hk u Q)).
    intros X. apply Ha. rewrite EA. apply in_app_iff. right. exact X. }
  destruct (cov_delim _ _ _ _ _ _ F3 Uc) as (t' & ts3 & -> & G1 & G2 & G3 & G4 & G5).
  exists t, ts1, t', ts3. split; [reflexivity|]. rewrite !aft_app. split; [|auto].
  unfold fdelim. rewrite (Ho t E1 E4 E2), F4. cbn [until]. rewrite (stopped_units _ _ _ _ st F3).
  assert (Ncl : cl <> []) by (intros ->; destruct (utok_ok _ _ _ _ (cov_fine _ _ _ _ F3) Uc) as (_ & X & _); congruence).
  assert (Q : ustop st (aft (aft b op) us) (cl ++ R) = false) by (destruct cl; [congruence|apply C2]).
  rewrite Q, (Hc t' G1 G4), app_nil_r. reflexivity.
Qed.

Lemma calm_left : forall st A b B C, calm st b (A ++ B) C -> calm st b A (B ++ C).
Proof. intros st A b B C H. apply calm_app in H. apply H. Qed.
Lemma calm_right : forall st A b B C, calm st b (A ++ B) C -> calm st (aft b A) B C.
Proof. intros st A b B C H. apply calm_app in H. apply H. Qed.

(** The same with one character for both delimiters. *)
Lemma fdelim_same : forall s st b ts nd c k n us R, run_kind c = Some k -> c <> c_lcurly -> c <> c_space -> special c = true -> c <> c_percent -> c <> c_rcurly ->
  kind_char k = Some c ->
  cov s b ts (repeat (raw c) (S n) ++ us ++ repeat (raw c) (S n) ++ R) -> us <> [] -> absent c us -> raw_at c R = false ->
  calm st b (repeat (raw c) (S n) ++ us ++ repeat (raw c) (S n)) R ->
  exists t ts1 t' ts2, let m := (fun t => kind_eqb (kind t) k && (tlen t =? S n)) in ts = t :: ts1 ++ t' :: ts2 /\ fdelim nd m m st ts = Some (Node nd [t] [Leaf ts1] [t'], ts2) /\ ttexts s ts1 = chars us
    /\ cov s (aft b (repeat (raw c) (S n) ++ us ++ repeat (raw c) (S n))) ts2 R.
Proof.
  intros s st b ts nd c k n us R K N1 N2 Sc N3 N4 Kc H NE Ha Hr Hcalm. cbv zeta.
  assert (Q : forall t, kind t = k -> tlen t = byte_len (chars (repeat (raw c) (S n))) -> kind_eqb (kind t) k && (tlen t =? S n) = true).
  { intros t H1 H2. rewrite (byte_len_repeat c (S n) (run_ascii _ _ K)) in H2. rewrite H1, H2, Nat.eqb_refl, andb_true_r. apply kind_eqb_eq. reflexivity. }
  eapply (fdelim_units s st b ts nd _ _ _ us _ R k k c H).
  - apply delim_run; auto. destruct us as [|u us]; [congruence|]. cbn. destruct (negb (fst u) && char_eqb (snd u) c) eqn:E; [|reflexivity].
    exfalso. apply andb_true_iff in E. destruct E as [E1 E2]. apply char_eqb_eq in E2. apply negb_true_iff in E1. apply Ha. left. apply raw_eq; auto.
  - apply delim_run; auto.
  - auto.
  - auto.
  - intros t Ht. apply andb_true_iff in Ht. destruct Ht as [Ht _]. apply kind_eqb_eq in Ht. rewrite Ht. exact Kc.
  - exact Ha.
  - apply seam_special; auto. apply absent_ends. exact Ha.
  - eapply calm_right. exact Hcalm.
Qed.

(** ** Items *)

Inductive vitem := VText (us : list uchar) | VItalic (us : list uchar) | VStrike (us : list uchar).
Inductive uitem :=
| UText (us : list uchar) | UItalic (us : list uchar) | UStrike (us : list uchar) | UEmph (us : list uchar) | UCode (us : list uchar)
| UAnchor (t u : list uchar) | UBold (l : list vitem).

Definition wrap (d us : list uchar) : list uchar := d ++ us ++ d.
Definition d_italic := [raw c_underscore].
Definition d_strike := [raw c_tilde; raw c_tilde].
Definition d_emph := [raw c_star].
Definition d_bold := [raw c_star; raw c_star].
Definition d_code := [raw c_backtick].
Definition vflat (v : vitem) : list uchar :=
  match v with VText us => us | VItalic us => wrap d_italic us | VStrike us => wrap d_strike us end.
Definition ulink (t u : list uchar) : list uchar := [raw c_lsquare] ++ t ++ [raw c_rsquare] ++ [raw c_lparen] ++ u ++ [raw c_rparen].
Definition uflat (x : uitem) : list uchar :=
  match x with
  | UText us => us
  | UItalic us => wrap d_italic us
  | UStrike us => wrap d_strike us
  | UEmph us => wrap d_emph us
  | UCode us => wrap d_code us
  | UAnchor t u => ulink t u
  | UBold l => wrap d_bold (flat_map vflat l)
  end.
Definition verase (v : vitem) : bold_node :=
  match v with VText us => BText (chars us) | VItalic us => BItalic (chars us) | VStrike us => BStrike (chars us) end.
Definition uerase (x : uitem) : par_node :=
  match x with
  | UText us => PText (chars us)
  | UItalic us => PItalic (chars us)
  | UStrike us => PStrike (chars us)
  | UEmph us => PEmphasis (chars us)
  | UCode us => PCodeSpan (chars us)
  | UAnchor t u => PAnchor (chars t) (chars u)
  | UBold l => PBold (map verase l)
  end.

Definition vgood (v : vitem) : Prop :=
  match v with
  | VText us => us <> [] /\ absent c_star us /\ absent c_underscore us /\ absent c_tilde us
  | VItalic us => absent c_underscore us
  | VStrike us => us <> [] /\ absent c_tilde us
  end.
(** What may stand next to each other. *)
Definition vnext (v w : vitem) : Prop :=
  match v, w with VText _, VText _ | VStrike _, VStrike _ => False | _, _ => True end.
Fixpoint chain {X} (R : X -> X -> Prop) (l : list X) : Prop :=
  match l with x :: r => match r with y :: _ => R x y | [] => True end /\ chain R r | [] => True end.
Definition ugood (x : uitem) : Prop :=
  match x with
  | UText us => us <> [] /\ absent c_star us /\ absent c_underscore us /\ absent c_tilde us /\ absent c_backtick us /\ absent c_lsquare us
  | UItalic us => absent c_underscore us
  | UStrike us => us <> [] /\ absent c_tilde us
  | UEmph us => us <> [] /\ absent c_star us
  | UCode us => us <> [] /\ absent c_backtick us
  | UAnchor t u => absent c_rsquare t /\ absent c_lparen u /\ absent c_rparen u
  | UBold l => l <> [] /\ Forall vgood l /\ chain vnext l
  end.
Definition unext (x y : uitem) : Prop :=
  match x, y with
  | UText _, UText _ | UStrike _, UStrike _ | UCode _, UCode _ | (UEmph _ | UBold _), (UEmph _ | UBold _) => False
  | _, _ => True
  end.

(** A seam after every item. *)
Fixpoint seams {X} (fl : X -> list uchar) (l : list X) (B : list uchar) : Prop :=
  match l with [] => True | x :: r => seam (fl x) (flat_map fl r ++ B) /\ seams fl r B end.

(** ** Walking over texts and nodes *)

Lemma fitems_walk : forall f st ts1 n acc ts2, (forall x t y, ts1 = x ++ t :: y -> stopped st (t :: y ++ ts2) = false /\ f st (t :: y ++ ts2) = None) ->
  fitems f (List.length ts1 + n) st acc (ts1 ++ ts2) = fitems f n st (acc ++ ts1) ts2.
Proof.
  intros f st ts1. induction ts1 as [|t ts1 IH]; intros n acc ts2 H; [rewrite app_nil_r; reflexivity|].
  destruct (H [] t ts1 eq_refl) as [H1 H2]. change ((t :: ts1) ++ ts2) with (t :: ts1 ++ ts2). cbn [List.length Nat.add fitems]. rewrite H1, H2.
  rewrite IH by (intros x u y E; apply (H (t :: x)); rewrite E; reflexivity). rewrite <- app_assoc. reflexivity.
Qed.

Section Items.
  Context {I X : Type} (f : fparser) (st : list stop_condition) (s : str) (fl : I -> list uchar) (txt : I -> bool) (good : I -> Prop)
    (of_ : tree -> list X) (er : I -> X) (fol : I -> list I -> Prop).
  Context (Hne : forall x, good x -> fl x <> [])
    (Hnone : forall x l A0 A b t ts B, txt x = true -> good x -> fol x l -> fl x = A0 ++ A -> A <> [] -> cov s b (t :: ts) ((A ++ flat_map fl l) ++ B) ->
       seam (A ++ flat_map fl l) B -> ustop st (aft b (A ++ flat_map fl l)) B = true -> f st (t :: ts) = None)
    (Hleaf : forall x ts, txt x = true -> good x -> ttexts s ts = chars (fl x) -> of_ (Leaf ts) = [er x])
    (Hitem : forall x b ts B, txt x = false -> good x -> cov s b ts (fl x ++ B) -> seam (fl x) B -> calm st b (fl x) B ->
       exists t u tx ts', f st ts = Some (t, ts') /\ of_ t = [er x] /\ cov s (aft b (fl x)) ts' B /\ ts = u :: tx ++ ts').

  Definition texts_apart (x y : I) : Prop := txt x = true -> txt y = true -> False.
  Fixpoint fols (l : list I) : Prop := match l with [] => True | x :: r => fol x r /\ fols r end.

  Lemma fitems_units : forall l, Forall good l -> chain texts_apart l -> fols l -> forall n b ts B acc,
    (acc = [] \/ match l with x :: _ => txt x = false | [] => True end) ->
    cov s b ts (flat_map fl l ++ B) -> seams fl l B -> (l <> [] -> seam (flat_map fl l) B) ->
    calm st b (flat_map fl l) B -> ustop st (aft b (flat_map fl l)) B = true ->
    List.length ts < n -> exists k ts1 ts2, fitems f n st acc ts = (leaf acc ++ k, ts2) /\ flat_map of_ k = map er l
      /\ cov s (aft b (flat_map fl l)) ts2 B /\ ts = ts1 ++ ts2.
  Proof.
    induction l as [|x l IH]; intros G Ch Fo n b ts B acc Hacc H Hs Hw Hc Hst Hn.
    - exists [], [], ts. cbn [flat_map app aft] in *. destruct n as [|n]; [lia|]. cbn [fitems]. rewrite (stopped_units _ _ _ _ st H), Hst, app_nil_r. auto.
    - inversion G as [|? ? Gx Gl]; subst. destruct Ch as [Ch0 Ch]. destruct Fo as [Fo0 Fo]. cbn [flat_map] in *. rewrite <- app_assoc in H. destruct Hs as [Hs0 Hs].
      specialize (Hw ltac:(discriminate)).
      assert (Hw' : l <> [] -> seam (flat_map fl l) B).
      { intros NE. destruct (seam_tail _ _ _ Hw) as [Q0|Q0]; [|exact Q0]. exfalso. destruct l as [|y l]; [congruence|]. inversion Gl as [|? ? Gy _]; subst.
        cbn [flat_map] in X. apply app_eq_nil in Q0. exact (Hne y Gy (proj1 Q0)). }
      rewrite aft_app in *. pose proof (calm_left _ _ _ _ _ Hc) as Hc1. pose proof (calm_right _ _ _ _ _ Hc) as Hc2.
      destruct (txt x) eqn:Tx.
      + destruct Hacc as [->|Hacc]; [|discriminate]. destruct (cov_split _ _ _ _ _ H Hs0) as (ts1 & ts2 & -> & E2 & E3 & E4 & E5).
        rewrite app_length in Hn. replace n with (List.length ts1 + (n - List.length ts1)) by lia.
        rewrite fitems_walk.
        2:{ intros y t z E. destruct (E5 y t z E) as (A1 & A2 & F1 & F2 & F3 & F4). split.
            2:{ refine (Hnone x l A1 A2 (aft b A1) t (z ++ ts2) B Tx Gx Fo0 F1 F2 _ _ _).
                - rewrite <- app_assoc. exact F3.
                - rewrite F1, <- app_assoc in Hw. destruct (seam_tail _ _ _ Hw) as [Q0|Q0]; [|exact Q0]. apply app_eq_nil in Q0. destruct Q0. congruence.
                - rewrite <- aft_app, app_assoc, <- F1, aft_app. exact Hst. }
            rewrite (stopped_units _ _ _ _ st F3). rewrite F1 in Hc1. eapply calm_at; eassumption. }
        destruct (IH Gl Ch Fo (n - List.length ts1) _ _ _ ts1 ltac:(right; destruct l as [|y l]; [exact Logic.I|destruct (txt y) eqn:Ty; [exfalso; apply Ch0; auto|reflexivity]]) E3 Hs Hw' Hc2 Hst ltac:(lia))
          as (k & tsa & tsb & I1 & I2 & I3 & I4).
        exists (leaf ts1 ++ k), (ts1 ++ tsa), tsb. split; [exact I1|]. split.
        { rewrite flat_map_app, I2. cbn [map]. specialize (E4 (Hne x Gx)). destruct ts1 as [|t1 ts1]; [congruence|]. cbn [leaf flat_map].
          rewrite (Hleaf x _ Tx Gx E2). reflexivity. }
        split; [exact I3|]. rewrite I4, app_assoc. reflexivity.
      + destruct (Hitem x b ts _ Tx Gx H Hs0 Hc1) as (t & u & tx & ts' & F1 & F2 & F3 & ->).
        destruct n as [|n]; [lia|]. cbn [fitems]. rewrite (stopped_units _ _ _ _ st H).
        assert (Q : ustop st b (fl x ++ flat_map fl l ++ B) = false) by (specialize (Hne x Gx); destruct (fl x); [congruence|apply Hc1]).
        rewrite Q, F1. cbn [List.length] in Hn. rewrite app_length in Hn.
        destruct (IH Gl Ch Fo n _ _ _ [] ltac:(left; reflexivity) F3 Hs Hw' Hc2 Hst ltac:(lia)) as (k & tsa & tsb & I1 & I2 & I3 & I4).
        rewrite I1. exists (t :: k), (u :: tx ++ tsa), tsb. split; [reflexivity|]. cbn [flat_map map]. rewrite I2, F2. split; [reflexivity|]. split; [exact I3|].
        rewrite I4. cbn. rewrite app_assoc. reflexivity.
  Qed.
End Items.

(** ** Nodes inside bold *)

Lemma kind_len_char : forall k n t c, kind_char k = Some c -> kind_eqb (kind t) k && (tlen t =? n) = true -> kind_char (kind t) = Some c.
Proof. intros k n t c K H. apply andb_true_iff in H. destruct H as [H _]. apply kind_eqb_eq in H. rewrite H. exact K. Qed.

(** A token test that needs another first unit. *)
Lemma not_first : forall s b t ts A B k n c, cov s b (t :: ts) (A ++ B) -> A <> [] -> absent c A -> kind_char k = Some c ->
  kind_eqb (kind t) k && (tlen t =? n) = false.
Proof.
  intros s b t ts A B k n c H NE Ha K. destruct (kind_eqb (kind t) k && (tlen t =? n)) eqn:E; [|reflexivity]. exfalso.
  exact (first_in _ _ _ _ _ _ c H NE Ha (kind_len_char _ _ _ _ K E)).
Qed.
(** The same from the first unit. *)
Lemma not_raw : forall s b t ts us k n c, cov s b (t :: ts) us -> raw_at c us = false -> kind_char k = Some c -> kind_eqb (kind t) k && (tlen t =? n) = false.
Proof.
  intros s b t ts us k n c H Hr K. destruct (kind_eqb (kind t) k && (tlen t =? n)) eqn:E; [|reflexivity]. exfalso.
  destruct (kind_first _ _ _ _ _ _ H (kind_len_char _ _ _ _ K E)) as (r & ->). rewrite raw_at_raw in Hr. discriminate.
Qed.
Lemma not_raw_kind : forall s b t ts us k c, cov s b (t :: ts) us -> raw_at c us = false -> kind_char k = Some c -> kind_eqb (kind t) k = false.
Proof.
  intros s b t ts us k c H Hr K. destruct (kind_eqb (kind t) k) eqn:E; [|reflexivity]. exfalso. apply kind_eqb_eq in E. subst k.
  destruct (kind_first _ _ _ _ _ _ H K) as (r & ->). rewrite raw_at_raw in Hr. discriminate.
Qed.

Lemma fdelim_none : forall nd io ic st t ts, io t = false -> fdelim nd io ic st (t :: ts) = None.
Proof. intros nd io ic st t ts H. cbn. rewrite H. reflexivity. Qed.

Lemma italic_units : forall s st b ts us R, cov s b ts (wrap d_italic us ++ R) -> absent c_underscore us -> calm st b (wrap d_italic us) R ->
  exists t ts1 t' ts2, ts = t :: ts1 ++ t' :: ts2 /\ fitalic st ts = Some (Node NItalic [t] [Leaf ts1] [t'], ts2) /\ ttexts s ts1 = chars us
    /\ cov s (aft b (wrap d_italic us)) ts2 R.
Proof.
  intros s st b ts us R H Ha Hc. unfold wrap in *. rewrite <- !app_assoc in H.
  eapply (fdelim_units s st b ts NItalic is_underscore is_underscore d_italic us d_italic R Underscore Underscore c_underscore H).
  - apply delim_single. reflexivity.
  - apply delim_single. reflexivity.
  - intros t H1 H2 _. unfold is_underscore. rewrite H1, H2. reflexivity.
  - intros t H1 H2. unfold is_underscore. rewrite H1, H2. reflexivity.
  - intros t Ht. exact (kind_len_char Underscore 1 t c_underscore eq_refl Ht).
  - exact Ha.
  - apply seam_special; try reflexivity; try discriminate. apply absent_ends. exact Ha.
  - eapply calm_right. exact Hc.
Qed.
Lemma strike_units : forall s st b ts us R, cov s b ts (wrap d_strike us ++ R) -> us <> [] -> absent c_tilde us -> raw_at c_tilde R = false -> calm st b (wrap d_strike us) R ->
  exists t ts1 t' ts2, ts = t :: ts1 ++ t' :: ts2 /\ fstrike st ts = Some (Node NStrikethrough [t] [Leaf ts1] [t'], ts2) /\ ttexts s ts1 = chars us
    /\ cov s (aft b (wrap d_strike us)) ts2 R.
Proof.
  intros s st b ts us R H NE Ha Hr Hc. unfold wrap in *. rewrite <- !app_assoc in H.
  exact (fdelim_same s st b ts NStrikethrough c_tilde Tilde 1 us R eq_refl ltac:(discriminate) ltac:(discriminate) eq_refl ltac:(discriminate) ltac:(discriminate) eq_refl H NE Ha Hr Hc).
Qed.
Lemma emph_units : forall s st b ts us R, cov s b ts (wrap d_emph us ++ R) -> us <> [] -> absent c_star us -> raw_at c_star R = false -> calm st b (wrap d_emph us) R ->
  exists t ts1 t' ts2, ts = t :: ts1 ++ t' :: ts2 /\ femphasis st ts = Some (Node NEmphasis [t] [Leaf ts1] [t'], ts2) /\ ttexts s ts1 = chars us
    /\ cov s (aft b (wrap d_emph us)) ts2 R.
Proof.
  intros s st b ts us R H NE Ha Hr Hc. unfold wrap in *. rewrite <- !app_assoc in H.
  exact (fdelim_same s st b ts NEmphasis c_star Star 0 us R eq_refl ltac:(discriminate) ltac:(discriminate) eq_refl ltac:(discriminate) ltac:(discriminate) eq_refl H NE Ha Hr Hc).
Qed.
Lemma code_units : forall s st b ts us R, cov s b ts (wrap d_code us ++ R) -> us <> [] -> absent c_backtick us -> raw_at c_backtick R = false -> calm st b (wrap d_code us) R ->
  exists t ts1 t' ts2, ts = t :: ts1 ++ t' :: ts2 /\ fcode_span st ts = Some (Node NCodeSpan [t] [Leaf ts1] [t'], ts2) /\ ttexts s ts1 = chars us
    /\ cov s (aft b (wrap d_code us)) ts2 R.
Proof.
  intros s st b ts us R H NE Ha Hr Hc. unfold wrap in *. rewrite <- !app_assoc in H.
  exact (fdelim_same s st b ts NCodeSpan c_backtick Backtick 0 us R eq_refl ltac:(discriminate) ltac:(discriminate) eq_refl ltac:(discriminate) ltac:(discriminate) eq_refl H NE Ha Hr Hc).
Qed.

(** The first unit of something decides for [seam]s. *)
Lemma seam_wrap : forall d c us B, (d = [raw c] \/ d = [raw c; raw c]) -> c <> c_nl ->
  is_some (single_kind c) = true \/ (is_some (run_kind c) = true /\ c <> c_space /\ c <> c_lcurly /\ raw_at c B = false) -> seam (wrap d us) B.
Proof.
  intros d c us B Hd Nn H. unfold wrap. destruct Hd as [-> | ->].
  - rewrite app_assoc. apply seam_delim; assumption.
  - change [raw c; raw c] with ([raw c] ++ [raw c]) at 2. rewrite !app_assoc. apply seam_delim; assumption.
Qed.

Lemma seam_raw_at : forall c k us B, seam us B -> ends c us -> run_kind c = Some k -> c <> c_space -> raw_at c B = false.
Proof.
  intros c k us B H (r & ->) K N. destruct H as [H|[->|(a' & a & b & b' & H & -> & J)]].
  - destruct r; discriminate.
  - reflexivity.
  - apply app_inj_tail in H. destruct H as [_ <-]. cbn [raw_at]. destruct (fst b) eqn:Fb; [reflexivity|]. cbn [negb andb].
    unfold joint in J. cbn [fst snd raw] in J. rewrite Fb in J. cbn [orb] in J. destruct (run_not_pair _ _ K) as (K1 & _). rewrite K1 in J.
    destruct (single_kind c) as [k2|] eqn:Sk; [destruct (single_not_pair _ _ [] Sk) as [_ X]; congruence|]. rewrite K in J. cbn [is_some andb] in J.
    replace (char_eqb c c_space) with false in J by (symmetry; apply N.eqb_neq; exact N). cbn [negb andb] in J. apply andb_true_iff in J. destruct J as [J _].
    apply negb_true_iff in J. unfold char_eqb in *. rewrite N.eqb_sym. exact J.
Qed.
Lemma wrap_ends1 : forall c us, ends c (wrap [raw c] us).
Proof. intros. exists ([raw c] ++ us). unfold wrap. rewrite app_assoc. reflexivity. Qed.
Lemma wrap_ends2 : forall c us, ends c (wrap [raw c; raw c] us).
Proof. intros. exists ([raw c; raw c] ++ us ++ [raw c]). unfold wrap. rewrite <- !app_assoc. reflexivity. Qed.

Definition vtxt (v : vitem) : bool := match v with VText _ => true | _ => false end.

Lemma vflat_nonempty : forall v, vgood v -> vflat v <> [].
Proof. intros [us|us|us] G; cbn in *; [apply G|discriminate|discriminate]. Qed.

Lemma fbold_walk : forall st ts1 n acc ts2,
  (forall x t y, ts1 = x ++ t :: y -> stopped st (t :: y ++ ts2) = false /\ is_star2 t = false /\ forelse fstrike fitalic st (t :: y ++ ts2) = None) ->
  fbold_loop (List.length ts1 + n) st acc (ts1 ++ ts2) = fbold_loop n st (acc ++ ts1) ts2.
Proof.
  intros st ts1. induction ts1 as [|t ts1 IH]; intros n acc ts2 H; [rewrite app_nil_r; reflexivity|].
  destruct (H [] t ts1 eq_refl) as (H1 & H2 & H3). change ((t :: ts1) ++ ts2) with (t :: ts1 ++ ts2). cbn [List.length Nat.add fbold_loop]. rewrite H1, H2, H3.
  rewrite IH by (intros x u y E; apply (H (t :: x)); rewrite E; reflexivity). rewrite <- app_assoc. reflexivity.
Qed.

Lemma vitem_units : forall s st v b ts R, vtxt v = false -> vgood v -> cov s b ts (vflat v ++ R) -> seam (vflat v) R -> calm st b (vflat v) R ->
  exists t u tx ts', forelse fstrike fitalic st ts = Some (t, ts') /\ bold_of s t = [verase v] /\ cov s (aft b (vflat v)) ts' R /\ ts = u :: tx ++ ts' /\ is_star2 u = false.
Proof.
  intros s st v b ts R T G H Hs Hc. destruct v as [us|us|us]; [discriminate| |].
  - destruct (italic_units _ _ _ _ _ _ H G Hc) as (t & ts1 & t' & ts2 & -> & E & Et & C). exists (Node NItalic [t] [Leaf ts1] [t']), t, (ts1 ++ [t']), ts2.
    pose proof (not_raw _ _ _ _ _ Tilde 2 c_tilde H eq_refl eq_refl) as Q. pose proof (not_raw _ _ _ _ _ Star 2 c_star H eq_refl eq_refl) as Q2.
    unfold forelse. unfold fstrike at 1. rewrite fdelim_none by exact Q. rewrite E. split; [reflexivity|]. split; [cbn; rewrite app_nil_r, Et; reflexivity|]. split; [exact C|].
    split; [rewrite <- app_assoc; reflexivity|exact Q2].
  - destruct G as [G1 G2]. pose proof (seam_raw_at c_tilde Tilde _ _ Hs (wrap_ends2 _ _) eq_refl ltac:(discriminate)) as Hr.
    destruct (strike_units _ _ _ _ _ _ H G1 G2 Hr Hc) as (t & ts1 & t' & ts2 & -> & E & Et & C). exists (Node NStrikethrough [t] [Leaf ts1] [t']), t, (ts1 ++ [t']), ts2.
    pose proof (not_raw _ _ _ _ _ Star 2 c_star H eq_refl eq_refl) as Q2.
    unfold forelse. rewrite E. split; [reflexivity|]. split; [cbn; rewrite app_nil_r, Et; reflexivity|]. split; [exact C|].
    split; [rewrite <- app_assoc; reflexivity|exact Q2].
Qed.

Lemma absent_suffix : forall c A0 A, absent c (A0 ++ A) -> absent c A.
Proof. intros c A0 A H X. apply H. apply in_app_iff. right. exact X. Qed.

Lemma vnone : forall s st us A0 A b t ts B, vgood (VText us) -> us = A0 ++ A -> A <> [] -> cov s b (t :: ts) (A ++ B) ->
  is_star2 t = false /\ forelse fstrike fitalic st (t :: ts) = None.
Proof.
  intros s st us A0 A b t ts B (_ & G1 & G2 & G3) -> NE H. apply absent_suffix in G1. apply absent_suffix in G2. apply absent_suffix in G3.
  split; [exact (not_first _ _ _ _ _ _ Star 2 c_star H NE G1 eq_refl)|]. unfold forelse, fstrike, fitalic.
  rewrite !fdelim_none; [reflexivity| |].
  - exact (not_first _ _ _ _ _ _ Underscore 1 c_underscore H NE G2 eq_refl).
  - exact (not_first _ _ _ _ _ _ Tilde 2 c_tilde H NE G3 eq_refl).
Qed.

Lemma fbold_units : forall s st l, Forall vgood l -> chain (texts_apart vtxt) l -> forall n b ts R acc,
  (acc = [] \/ match l with x :: _ => vtxt x = false | [] => True end) ->
  cov s b ts (flat_map vflat l ++ d_bold ++ R) -> seams vflat l (d_bold ++ R) -> calm st b (flat_map vflat l ++ d_bold) R -> raw_at c_star R = false ->
  List.length ts < n -> exists k t ts1 ts2, fbold_loop n st acc ts = Some (leaf acc ++ k, t, ts2) /\ flat_map (bold_of s) k = map verase l
    /\ cov s (aft b (flat_map vflat l ++ d_bold)) ts2 R /\ ts = ts1 ++ t :: ts2.
Proof.
  intros s st. induction l as [|x l IH]; intros G Ch n b ts R acc Hacc H Hs Hc Hr Hn.
  - cbn [flat_map app] in *. destruct (cov_delim s b ts d_bold R Star H (delim_run c_star Star 1 R eq_refl ltac:(discriminate) Hr)) as (t & ts' & -> & E1 & E2 & E3 & E4 & E5).
    exists [], t, [], ts'. destruct n as [|n]; [lia|]. cbn [fbold_loop]. rewrite (stopped_units _ _ _ _ st H).
    assert (Q : ustop st b (d_bold ++ R) = false) by apply Hc. rewrite Q. assert (Q2 : is_star2 t = true) by (unfold is_star2; rewrite E1, E4; reflexivity).
    rewrite Q2, app_nil_r. auto.
  - inversion G as [|? ? Gx Gl]; subst. destruct Ch as [Ch0 Ch]. cbn [flat_map] in *. rewrite <- app_assoc in H, Hc. destruct Hs as [Hs0 Hs].
    rewrite <- !app_assoc. rewrite aft_app. pose proof (calm_left _ _ _ _ _ Hc) as Hc1. rewrite <- app_assoc in Hc1. pose proof (calm_right _ _ _ _ _ Hc) as Hc2.
    destruct (vtxt x) eqn:Tx.
    + destruct Hacc as [->|Hacc]; [|discriminate]. destruct (cov_split _ _ _ _ _ H Hs0) as (ts1 & ts2 & -> & E2 & E3 & E4 & E5). destruct x as [us|us|us]; try discriminate.
      rewrite app_length in Hn. replace n with (List.length ts1 + (n - List.length ts1)) by lia.
      rewrite fbold_walk.
      2:{ intros y t z E. destruct (E5 y t z E) as (A1 & A2 & F1 & F2 & F3 & F4). split; [|eapply vnone; eassumption].
          rewrite (stopped_units _ _ _ _ st F3). rewrite F1 in Hc1. eapply calm_at; eassumption. }
      destruct (IH Gl Ch (n - List.length ts1) _ _ _ ts1 ltac:(right; destruct l as [|y l]; [exact I|destruct (vtxt y) eqn:Ty; [exfalso; apply Ch0; auto|reflexivity]]) E3 Hs Hc2 Hr ltac:(lia))
        as (k & t & tsa & tsb & I1 & I2 & I3 & I4).
      exists (leaf ts1 ++ k), t, (ts1 ++ tsa), tsb. split; [exact I1|]. split.
      { rewrite flat_map_app, I2. cbn [map]. specialize (E4 (vflat_nonempty _ Gx)). destruct ts1 as [|t1 ts1]; [congruence|]. cbn [leaf flat_map app bold_of verase vflat] in *.
        rewrite E2. reflexivity. }
      split; [exact I3|]. rewrite I4, app_assoc. reflexivity.
    + destruct (vitem_units s st x b ts _ Tx Gx H Hs0 Hc1) as (t & u & tx & ts' & F1 & F2 & F3 & -> & F5).
      destruct n as [|n]; [lia|]. cbn [fbold_loop]. rewrite (stopped_units _ _ _ _ st H).
      assert (Q : ustop st b (vflat x ++ flat_map vflat l ++ d_bold ++ R) = false) by (pose proof (vflat_nonempty x Gx); destruct (vflat x); [congruence|apply Hc1]).
      rewrite Q, F5, F1. cbn [List.length] in Hn. rewrite app_length in Hn.
      destruct (IH Gl Ch n _ _ _ [] ltac:(left; reflexivity) F3 Hs Hc2 Hr ltac:(lia)) as (k & t2 & tsa & tsb & I1 & I2 & I3 & I4).
      rewrite I1. exists (t :: k), t2, (u :: tx ++ tsa), tsb. split; [reflexivity|]. cbn [flat_map map]. rewrite I2, F2. split; [reflexivity|]. split; [exact I3|].
      rewrite I4. cbn. rewrite app_assoc. reflexivity.
Qed.

(** ** Links *)

Lemma dest_walk : forall st ts1 n ts2,
  (forall x t y, ts1 = x ++ t :: y -> stopped st (t :: y ++ ts2) = false /\ kind t <> LeftParenthesis /\ kind t <> RightParenthesis) ->
  dest_scan st n (ts1 ++ ts2) = match dest_scan st n ts2 with Some (b, c, r) => Some (ts1 ++ b, c, r) | None => None end.
Proof.
  intros st ts1. induction ts1 as [|t ts1 IH]; intros n ts2 H.
  - cbn [app]. destruct (dest_scan st n ts2) as [[[? ?] ?]|]; reflexivity.
  - destruct (H [] t ts1 eq_refl) as (H1 & H2 & H3). change ((t :: ts1) ++ ts2) with (t :: ts1 ++ ts2). cbn [dest_scan]. rewrite H1.
    rewrite IH by (intros x u y E; apply (H (t :: x)); rewrite E; reflexivity).
    destruct (kind t); try congruence; destruct (dest_scan st n ts2) as [[[? ?] ?]|]; reflexivity.
Qed.

Lemma dest_units : forall s st b ts u R, cov s b ts ([raw c_lparen] ++ u ++ [raw c_rparen] ++ R) -> absent c_lparen u -> absent c_rparen u ->
  calm st (aft b [raw c_lparen]) (u ++ [raw c_rparen]) R ->
  exists t ts1 t' ts2, ts = t :: ts1 ++ t' :: ts2 /\ fdest st ts = Some (Node NDestination [t] [Leaf ts1] [t'], ts2) /\ ttexts s ts1 = chars u
    /\ cov s (aft b ([raw c_lparen] ++ u ++ [raw c_rparen])) ts2 R.
Proof.
  intros s st b ts u R H A1 A2 Hc. destruct (cov_delim _ _ _ _ _ LeftParenthesis H (utok_single c_lparen _ _ eq_refl)) as (t & ts' & -> & E1 & E2 & E3 & E4 & E5).
  apply calm_app in Hc. destruct Hc as [C1 C2].
  assert (Hs : seam u ([raw c_rparen] ++ R)) by (apply seam_special; try reflexivity; try discriminate; apply absent_ends; exact A2).
  destruct (cov_split _ _ _ _ _ E5 Hs) as (ts1 & ts2 & -> & F2 & F3 & _ & F5).
  destruct (cov_delim _ _ _ _ _ RightParenthesis F3 (utok_single c_rparen _ _ eq_refl)) as (t' & ts3 & -> & G1 & G2 & G3 & G4 & G5).
  exists t, ts1, t', ts3. split; [reflexivity|]. rewrite !aft_app. split; [|auto].
  unfold fdest, is_left_paren. rewrite E1, E4. cbn [chars raw byte_len andb kind_eqb].
  replace (kind_eqb LeftParenthesis LeftParenthesis && (byte_len (chars [raw c_lparen]) =? 1)) with true by reflexivity.
  rewrite dest_walk.
  - cbn [dest_scan]. rewrite (stopped_units _ _ _ _ st F3), G1.
    assert (Q : ustop st (aft (aft b [raw c_lparen]) u) ([raw c_rparen] ++ R) = false) by apply C2.
    rewrite Q. cbn [Nat.sub Nat.eqb]. rewrite app_nil_r. reflexivity.
  - intros x w y E. destruct (F5 x w y E) as (X1 & X2 & K1 & K2 & K3 & K4). split.
    + rewrite (stopped_units _ _ _ _ st K3). rewrite K1 in C1. eapply calm_at; eassumption.
    + rewrite K1 in A1, A2. apply absent_suffix in A1. apply absent_suffix in A2.
      split; intros Kw; [refine (first_in _ _ _ _ _ _ _ K3 K2 A1 _)|refine (first_in _ _ _ _ _ _ _ K3 K2 A2 _)]; rewrite Kw; reflexivity.
Qed.

Lemma link_units : forall s st b ts t u R, cov s b ts (ulink t u ++ R) -> absent c_rsquare t -> absent c_lparen u -> absent c_rparen u -> calm st b (ulink t u) R ->
  exists o1 a c1 o2 d c2 ts2, ts = o1 :: a ++ c1 :: o2 :: d ++ c2 :: ts2
    /\ ftitle st ts = Some (Node NTitle [o1] [Leaf a] [c1], o2 :: d ++ c2 :: ts2)
    /\ fdest st (o2 :: d ++ c2 :: ts2) = Some (Node NDestination [o2] [Leaf d] [c2], ts2)
    /\ ttexts s a = chars t /\ ttexts s d = chars u /\ cov s (aft b (ulink t u)) ts2 R.
Proof.
  intros s st b ts t u R H A1 A2 A3 Hc. unfold ulink in *. rewrite <- !app_assoc in H.
  set (R' := [raw c_lparen] ++ u ++ [raw c_rparen] ++ R) in *.
  change ([raw c_lsquare] ++ t ++ [raw c_rsquare] ++ [raw c_lparen] ++ u ++ [raw c_rparen])
    with ([raw c_lsquare] ++ t ++ [raw c_rsquare] ++ ([raw c_lparen] ++ u ++ [raw c_rparen])) in *.
  apply calm_right in Hc. rewrite app_assoc in Hc. pose proof (calm_left _ _ _ _ _ Hc) as C1. pose proof (calm_right _ _ _ _ _ Hc) as C2.
  rewrite <- !app_assoc in C1. fold R' in C1.
  destruct (fdelim_units s st b ts NTitle is_left_bracket is_right_bracket [raw c_lsquare] t [raw c_rsquare] R' LeftSquareBracket RightSquareBracket c_rsquare H)
    as (o1 & a & c1 & r1 & -> & F1 & F2 & F3).
  - apply delim_single. reflexivity.
  - apply delim_single. reflexivity.
  - intros w H1 H2 _. unfold is_left_bracket. rewrite H1, H2. reflexivity.
  - intros w H1 H2. unfold is_right_bracket. rewrite H1, H2. reflexivity.
  - intros w Hw. exact (kind_len_char RightSquareBracket 1 w c_rsquare eq_refl Hw).
  - exact A1.
  - apply seam_special; try reflexivity; try discriminate. apply absent_ends. exact A1.
  - exact C1.
  - assert (Ea : aft b ([raw c_lsquare] ++ t ++ [raw c_rsquare]) = aft (aft b [raw c_lsquare]) (t ++ [raw c_rsquare])) by (rewrite !aft_app; reflexivity).
    destruct (dest_units s st _ r1 u R F3 A2 A3) as (o2 & d & c2 & r2 & -> & G1 & G2 & G3).
    { rewrite Ea. eapply calm_right. exact C2. }
    exists o1, a, c1, o2, d, c2, r2. split; [reflexivity|]. split; [exact F1|]. split; [exact G1|]. split; [exact F2|]. split; [exact G2|].
    rewrite !aft_app in *. exact G3.
Qed.

Lemma link_of : forall s o1 a c1 o2 d c2, 
  link_text s [Node NTitle o1 [Leaf a] c1; Node NDestination o2 [Leaf d] c2] = ttexts s a
  /\ link_dest s [Node NTitle o1 [Leaf a] c1; Node NDestination o2 [Leaf d] c2] = ttexts s d.
Proof.
  intros. unfold link_text, link_dest. rewrite child_text_hd, child_text_tl by discriminate. rewrite child_text_hd. cbn. rewrite !app_nil_r. auto.
Qed.

Lemma anchor_units : forall s st b ts t u R, cov s b ts (ulink t u ++ R) -> absent c_rsquare t -> absent c_lparen u -> absent c_rparen u -> calm st b (ulink t u) R ->
  exists x w tx ts2, fanchor st ts = Some (x, ts2) /\ par_of s x = [PAnchor (chars t) (chars u)] /\ head_of s x = [HAnchor (chars t) (chars u)]
    /\ cov s (aft b (ulink t u)) ts2 R /\ ts = w :: tx ++ ts2.
Proof.
  intros s st b ts t u R H A1 A2 A3 Hc. destruct (link_units _ _ _ _ _ _ _ H A1 A2 A3 Hc) as (o1 & a & c1 & o2 & d & c2 & ts2 & -> & F1 & F2 & F3 & F4 & F5).
  destruct (link_of s [o1] a [c1] [o2] d [c2]) as [L1 L2].
  eexists _, o1, (a ++ c1 :: o2 :: d ++ [c2]), ts2. unfold fanchor. rewrite F1, F2. split; [reflexivity|]. cbn [par_of head_of]. rewrite L1, L2, F3, F4.
  split; [reflexivity|]. split; [reflexivity|]. split; [exact F5|]. rewrite <- !app_assoc. cbn. rewrite <- app_assoc. reflexivity.
Qed.

(** ** Inline nodes *)

Definition utxt (x : uitem) : bool := match x with UText _ => true | _ => false end.

Lemma uflat_nonempty : forall x, ugood x -> uflat x <> [].
Proof. intros [] G; cbn in *; try discriminate. apply G. Qed.

Lemma fanchor_none : forall st t ts, is_left_bracket t = false -> fanchor st (t :: ts) = None.
Proof. intros st t ts H. unfold fanchor, ftitle. rewrite fdelim_none by exact H. reflexivity. Qed.
Lemma fbold_none : forall st t ts, is_star2 t = false -> fbold st (t :: ts) = None.
Proof. intros st t ts H. unfold fbold. rewrite H. reflexivity. Qed.

Lemma unone : forall s st us A0 A b t ts B, ugood (UText us) -> us = A0 ++ A -> A <> [] -> cov s b (t :: ts) (A ++ B) -> finline st (t :: ts) = None.
Proof.
  intros s st us A0 A b t ts B (_ & G1 & G2 & G3 & G4 & G5) -> NE H. apply absent_suffix in G1. apply absent_suffix in G2. apply absent_suffix in G3.
  apply absent_suffix in G4. apply absent_suffix in G5. unfold finline, forelse.
  rewrite fanchor_none by exact (not_first _ _ _ _ _ _ LeftSquareBracket 1 c_lsquare H NE G5 eq_refl).
  rewrite fbold_none by exact (not_first _ _ _ _ _ _ Star 2 c_star H NE G1 eq_refl).
  unfold fstrike, fitalic, fcode_span, femphasis. rewrite !fdelim_none; [reflexivity| | | |].
  - exact (not_first _ _ _ _ _ _ Star 1 c_star H NE G1 eq_refl).
  - exact (not_first _ _ _ _ _ _ Backtick 1 c_backtick H NE G4 eq_refl).
  - exact (not_first _ _ _ _ _ _ Underscore 1 c_underscore H NE G2 eq_refl).
  - exact (not_first _ _ _ _ _ _ Tilde 2 c_tilde H NE G3 eq_refl).
Qed.

(** Seams between the nodes of a bold text. *)
Definition opens (c : char) (us : list uchar) : Prop := raw_at c us = true.
Lemma raw_at_app : forall c A B, A <> [] -> raw_at c (A ++ B) = raw_at c A.
Proof. intros c [|u A] B H; [congruence|reflexivity]. Qed.
Lemma absent_raw_at : forall c us, absent c us -> raw_at c us = false.
Proof.
  intros c us H. destruct (raw_at c us) eqn:E; [|reflexivity]. apply raw_at_true in E. destruct E as (r & ->). exfalso. apply H. left. reflexivity.
Qed.

(** A text before a node. *)
Lemma seam_text_v : forall us w l B, vgood (VText us) -> vgood w -> vtxt w = false -> seam us (flat_map vflat (w :: l) ++ B).
Proof.
  intros us w l B (_ & G1 & G2 & G3) Gw T. destruct w as [vs|vs|vs]; [discriminate| |]; cbn [flat_map vflat wrap]; unfold wrap, d_italic, d_strike; rewrite <- !app_assoc; cbn [app];
    apply seam_special; try reflexivity; try discriminate; apply absent_ends; assumption.
Qed.
Lemma vseams : forall l R, Forall vgood l -> chain vnext l -> seams vflat l (d_bold ++ R).
Proof.
  induction l as [|v l IH]; intros R G Ch; [exact I|]. inversion G as [|? ? Gv Gl]; subst. destruct Ch as [Ch0 Ch]. split; [|apply IH; assumption].
  assert (Hd : l = [] \/ exists w l', l = w :: l') by (destruct l; eauto).
  destruct v as [us|us|us].
  - destruct Hd as [->|(w & l' & ->)].
    + cbn [flat_map app vflat]. unfold d_bold. cbn [app]. apply seam_special; try reflexivity; try discriminate. apply absent_ends. apply Gv.
    + inversion Gl as [|? ? Gw _]; subst. apply seam_text_v; [exact Gv|exact Gw|]. destruct w; cbn in Ch0; [contradiction|reflexivity|reflexivity].
  - apply (seam_wrap d_italic c_underscore); [left; reflexivity|discriminate|left; reflexivity].
  - apply (seam_wrap d_strike c_tilde); [right; reflexivity|discriminate|right]. split; [reflexivity|]. split; [discriminate|]. split; [discriminate|].
    destruct Hd as [->|(w & l' & ->)]; [reflexivity|]. inversion Gl as [|? ? Gw _]; subst. cbn [flat_map]. rewrite <- app_assoc, raw_at_app by (apply vflat_nonempty; exact Gw).
    destruct w as [vs|vs|vs]; cbn in Ch0; [|reflexivity|contradiction]. apply absent_raw_at. apply Gw.
Qed.
Lemma vchain : forall l, chain vnext l -> chain (texts_apart vtxt) l.
Proof.
  induction l as [|v l IH]; intros H; [exact I|]. destruct H as [H0 H]. split; [|apply IH; exact H]. destruct l as [|w l]; [exact I|].
  intros T1 T2. destruct v, w; try discriminate. exact H0.
Qed.

Lemma bold_units : forall s st b ts l R, cov s b ts (uflat (UBold l) ++ R) -> ugood (UBold l) -> raw_at c_star R = false -> calm st b (uflat (UBold l)) R ->
  exists t k t' tx ts2, fbold st ts = Some (Node NBold [t] k [t'], ts2) /\ flat_map (bold_of s) k = map verase l /\ cov s (aft b (uflat (UBold l))) ts2 R
    /\ ts = t :: tx ++ ts2.
Proof.
  intros s st b ts l R H (G1 & G2 & G3) Hr Hc. cbn [uflat] in *. unfold wrap in *. rewrite <- !app_assoc in H.
  assert (Ro : raw_at c_star (flat_map vflat l ++ d_bold ++ R) = false).
  { destruct l as [|v l]; [congruence|]. inversion G2 as [|? ? Gv _]; subst. cbn [flat_map]. rewrite <- app_assoc, raw_at_app by (apply vflat_nonempty; exact Gv).
    destruct v as [us|us|us]; [|reflexivity|reflexivity]. apply absent_raw_at. apply Gv. }
  destruct (cov_delim _ _ _ _ _ Star H (delim_run c_star Star 1 _ eq_refl ltac:(discriminate) Ro)) as (t & ts' & -> & E1 & E2 & E3 & E4 & E5).
  pose proof (calm_right _ _ _ _ _ Hc) as C.
  destruct (fbold_units s st l G2 (vchain _ G3) (S (List.length ts')) _ ts' R [] (or_introl eq_refl) E5 (vseams l R G2 G3) C Hr ltac:(lia))
    as (k & t' & ts1 & ts2 & F1 & F2 & F3 & ->).
  exists t, k, t', (ts1 ++ [t']), ts2. unfold fbold. assert (Q : is_star2 t = true) by (unfold is_star2; rewrite E1, E4; reflexivity). rewrite Q, F1.
  split; [reflexivity|]. split; [exact F2|]. split; [rewrite aft_app; exact F3|]. rewrite <- app_assoc. reflexivity.
Qed.

Lemma uitem_units : forall s st x b ts R, utxt x = false -> ugood x -> cov s b ts (uflat x ++ R) -> seam (uflat x) R -> calm st b (uflat x) R ->
  exists t u tx ts', finline st ts = Some (t, ts') /\ par_of s t = [uerase x] /\ cov s (aft b (uflat x)) ts' R /\ ts = u :: tx ++ ts'.
Proof.
  intros s st x b ts R T G H Hs Hc.
  assert (N : forall k n c, raw_at c (uflat x) = false -> kind_char k = Some c -> forall t ts', ts = t :: ts' -> kind_eqb (kind t) k && (tlen t =? n) = false).
  { intros k n c Hr K t ts' ->. apply (not_raw _ _ _ _ _ k n c H); [|exact K]. rewrite raw_at_app by (apply uflat_nonempty; exact G). exact Hr. }
  unfold finline, forelse. destruct x as [us|us|us|us|us|t u|l]; [discriminate| | | | | |].
  - destruct (italic_units _ _ _ _ _ _ H G Hc) as (t & ts1 & t' & ts2 & -> & E & Et & C). exists (Node NItalic [t] [Leaf ts1] [t']), t, (ts1 ++ [t']), ts2.
    unfold fstrike at 1. rewrite fdelim_none by exact (N Tilde 2 c_tilde eq_refl eq_refl _ _ eq_refl). rewrite E.
    split; [reflexivity|]. split; [cbn; rewrite app_nil_r, Et; reflexivity|]. split; [exact C|]. rewrite <- app_assoc. reflexivity.
  - destruct G as [G1 G2]. pose proof (seam_raw_at c_tilde Tilde _ _ Hs (wrap_ends2 _ _) eq_refl ltac:(discriminate)) as Hr.
    destruct (strike_units _ _ _ _ _ _ H G1 G2 Hr Hc) as (t & ts1 & t' & ts2 & -> & E & Et & C). exists (Node NStrikethrough [t] [Leaf ts1] [t']), t, (ts1 ++ [t']), ts2.
    rewrite E. split; [reflexivity|]. split; [cbn; rewrite app_nil_r, Et; reflexivity|]. split; [exact C|]. rewrite <- app_assoc. reflexivity.
  - destruct G as [G1 G2]. pose proof (seam_raw_at c_star Star _ _ Hs (wrap_ends1 _ _) eq_refl ltac:(discriminate)) as Hr.
    destruct (emph_units _ _ _ _ _ _ H G1 G2 Hr Hc) as (t & ts1 & t' & ts2 & -> & E & Et & C). exists (Node NEmphasis [t] [Leaf ts1] [t']), t, (ts1 ++ [t']), ts2.
    pose proof (run_test _ _ _ _ _ c_star Star 2 H eq_refl ltac:(lia) ltac:(left; discriminate)) as Q.
    assert (L : lead c_star (uflat (UEmph us) ++ R) =? 2 = false).
    { cbn [uflat]. unfold wrap. rewrite <- !app_assoc. change d_emph with (repeat (raw c_star) 1). rewrite lead_repeat; [reflexivity|].
      rewrite raw_at_app by exact G1. apply absent_raw_at. exact G2. }
    rewrite L in Q.
    unfold fstrike at 1. rewrite fdelim_none by exact (N Tilde 2 c_tilde eq_refl eq_refl _ _ eq_refl).
    unfold fitalic at 1. rewrite fdelim_none by exact (N Underscore 1 c_underscore eq_refl eq_refl _ _ eq_refl).
    rewrite fbold_none by exact Q. rewrite fanchor_none by exact (N LeftSquareBracket 1 c_lsquare eq_refl eq_refl _ _ eq_refl).
    unfold fcode_span at 1. rewrite fdelim_none by exact (N Backtick 1 c_backtick eq_refl eq_refl _ _ eq_refl).
    rewrite E. split; [reflexivity|]. split; [cbn; rewrite app_nil_r, Et; reflexivity|]. split; [exact C|]. rewrite <- app_assoc. reflexivity.
  - destruct G as [G1 G2]. pose proof (seam_raw_at c_backtick Backtick _ _ Hs (wrap_ends1 _ _) eq_refl ltac:(discriminate)) as Hr.
    destruct (code_units _ _ _ _ _ _ H G1 G2 Hr Hc) as (t & ts1 & t' & ts2 & -> & E & Et & C). exists (Node NCodeSpan [t] [Leaf ts1] [t']), t, (ts1 ++ [t']), ts2.
    unfold fstrike at 1. rewrite fdelim_none by exact (N Tilde 2 c_tilde eq_refl eq_refl _ _ eq_refl).
    unfold fitalic at 1. rewrite fdelim_none by exact (N Underscore 1 c_underscore eq_refl eq_refl _ _ eq_refl).
    rewrite fbold_none by exact (N Star 2 c_star eq_refl eq_refl _ _ eq_refl). rewrite fanchor_none by exact (N LeftSquareBracket 1 c_lsquare eq_refl eq_refl _ _ eq_refl).
    rewrite E. split; [reflexivity|]. split; [cbn; rewrite app_nil_r, Et; reflexivity|]. split; [exact C|]. rewrite <- app_assoc. reflexivity.
  - destruct G as (G1 & G2 & G3). destruct (anchor_units _ _ _ _ _ _ _ H G1 G2 G3 Hc) as (x & w & tx & ts2 & E & Ep & _ & C & ->). exists x, w, tx, ts2.
    unfold fstrike at 1. rewrite fdelim_none by exact (N Tilde 2 c_tilde eq_refl eq_refl _ _ eq_refl).
    unfold fitalic at 1. rewrite fdelim_none by exact (N Underscore 1 c_underscore eq_refl eq_refl _ _ eq_refl).
    rewrite fbold_none by exact (N Star 2 c_star eq_refl eq_refl _ _ eq_refl). rewrite E. auto.
  - pose proof (seam_raw_at c_star Star _ _ Hs (wrap_ends2 _ _) eq_refl ltac:(discriminate)) as Hr.
    destruct (bold_units _ _ _ _ _ _ H G Hr Hc) as (t & k & t' & tx & ts2 & E & Ek & C & ->). exists (Node NBold [t] k [t']), t, tx, ts2.
    unfold fstrike at 1. rewrite fdelim_none by exact (N Tilde 2 c_tilde eq_refl eq_refl _ _ eq_refl).
    unfold fitalic at 1. rewrite fdelim_none by exact (N Underscore 1 c_underscore eq_refl eq_refl _ _ eq_refl).
    rewrite E. cbn [par_of uerase]. rewrite Ek. auto.
Qed.

(** Seams between inline nodes. *)
Lemma useams : forall l B, Forall ugood l -> chain unext l -> seam (flat_map uflat l) B -> seams uflat l B.
Proof.
  induction l as [|x l IH]; intros B G Ch Hs; [exact I|]. inversion G as [|? ? Gx Gl]; subst. destruct Ch as [Ch0 Ch]. cbn [flat_map] in Hs.
  assert (Hd : l = [] \/ exists y l', l = y :: l') by (destruct l; eauto).
  destruct Hd as [->|(y & l' & ->)].
  { cbn [flat_map] in Hs. rewrite app_nil_r in Hs. split; [exact Hs|exact I]. }
  split.
  2:{ apply IH; [exact Gl|exact Ch|]. destruct (seam_tail _ _ _ Hs) as [X|X]; [|exact X]. exfalso. inversion Gl as [|? ? Gy _]; subst. cbn [flat_map] in X.
      apply app_eq_nil in X. exact (uflat_nonempty y Gy (proj1 X)). }
  inversion Gl as [|? ? Gy _]; subst. cbn [flat_map]. rewrite <- app_assoc. generalize (flat_map uflat l' ++ B). intros R.
  assert (Rd : forall c, raw_at c (uflat y ++ R) = raw_at c (uflat y)) by (intros c; apply raw_at_app, uflat_nonempty; exact Gy).
  assert (Ty : forall us, y = UText us -> forall c, c = c_star \/ c = c_tilde \/ c = c_backtick -> raw_at c us = false).
  { intros us -> c Hc. destruct Gy as (_ & Y1 & _ & Y2 & Y3 & _). apply absent_raw_at. destruct Hc as [->|[->| ->]]; assumption. }
  destruct x as [us|us|us|us|us|t u|vs].
  - destruct Gx as (_ & G1 & G2 & G3 & G4 & G5).
    destruct y as [ws|ws|ws|ws|ws|a w|ws]; cbn in Ch0; try contradiction; cbn [uflat]; unfold wrap, ulink, d_italic, d_strike, d_emph, d_code, d_bold; rewrite <- !app_assoc; cbn [app];
      apply seam_special; try reflexivity; try discriminate; apply absent_ends; assumption.
  - apply (seam_wrap d_italic c_underscore); [left; reflexivity|discriminate|left; reflexivity].
  - apply (seam_wrap d_strike c_tilde); [right; reflexivity|discriminate|right]. split; [reflexivity|]. split; [discriminate|]. split; [discriminate|].
    rewrite Rd. destruct y as [ws|ws|ws|ws|ws|a w|ws]; cbn in Ch0; try contradiction; try reflexivity. apply (Ty ws eq_refl). auto.
  - apply (seam_wrap d_emph c_star); [left; reflexivity|discriminate|right]. split; [reflexivity|]. split; [discriminate|]. split; [discriminate|].
    rewrite Rd. destruct y as [ws|ws|ws|ws|ws|a w|ws]; cbn in Ch0; try contradiction; try reflexivity. apply (Ty ws eq_refl). auto.
  - apply (seam_wrap d_code c_backtick); [left; reflexivity|discriminate|right]. split; [reflexivity|]. split; [discriminate|]. split; [discriminate|].
    rewrite Rd. destruct y as [ws|ws|ws|ws|ws|a w|ws]; cbn in Ch0; try contradiction; try reflexivity. apply (Ty ws eq_refl). auto.
  - cbn [uflat]. unfold ulink. rewrite !app_assoc. apply seam_delim; [left; reflexivity|discriminate].
  - apply (seam_wrap d_bold c_star); [right; reflexivity|discriminate|right]. split; [reflexivity|]. split; [discriminate|]. split; [discriminate|].
    rewrite Rd. destruct y as [ws|ws|ws|ws|ws|a w|ws]; cbn in Ch0; try contradiction; try reflexivity. apply (Ty ws eq_refl). auto.
Qed.
Lemma uchain : forall l, chain unext l -> chain (texts_apart utxt) l.
Proof.
  induction l as [|v l IH]; intros H; [exact I|]. destruct H as [H0 H]. split; [|apply IH; exact H]. destruct l as [|w l]; [exact I|].
  intros T1 T2. destruct v, w; try discriminate. exact H0.
Qed.

Definition uflats (l : list uitem) : list uchar := flat_map uflat l.
Definition ugoods (l : list uitem) : Prop := Forall ugood l /\ chain unext l.

(** ** Paragraphs *)

Lemma paragraph_units : forall s st b ts l B, cov s b ts (uflats l ++ B) -> ugoods l -> seam (uflats l) B -> calm st b (uflats l) B ->
  ustop st (aft b (uflats l)) B = true ->
  exists k ts1 ts2, fparagraph st ts = (Node NParagraph [] k [], ts2) /\ pars_of s k = map uerase l /\ cov s (aft b (uflats l)) ts2 B /\ ts = ts1 ++ ts2.
Proof.
  intros s st b ts l B H [G Ch] Hs Hc Hst.
  destruct (fitems_units finline st s uflat utxt ugood (par_of s) uerase (fun _ _ => True) uflat_nonempty) with (l := l) (n := S (List.length ts)) (b := b) (ts := ts) (B := B) (acc := @nil token)
    as (k & ts1 & ts2 & E1 & E2 & E3 & E4); auto.
  - intros x l0 A0 A b0 t ts0 B0 T Gx _ E NA C _ _. rewrite <- app_assoc in C. destruct x as [us|us|us|us|us|a w|ws]; try discriminate. eapply unone; eassumption.
  - intros x ts0 T Gx E. destruct x as [us|us|us|us|us|a w|ws]; try discriminate. cbn in *. rewrite E. reflexivity.
  - intros x b0 ts0 B0 T Gx C Sx Cx. exact (uitem_units s st x b0 ts0 B0 T Gx C Sx Cx).
  - apply uchain. exact Ch.
  - clear. induction l; cbn; auto.
  - apply useams; assumption.
  - exists k, ts1, ts2. unfold fparagraph. rewrite E1. auto.
Qed.

(** ** Heading content: texts and links *)

Definition hgood (x : uitem) : Prop :=
  match x with
  | UText us => us <> []
  | UAnchor t u => absent c_rsquare t /\ absent c_lparen u /\ absent c_rparen u
  | _ => False
  end.
(** A link starts in [us] when [R] follows it. *)
Definition uopens (us R : list uchar) : Prop :=
  exists a t u v, us ++ R = a ++ raw c_lsquare :: t ++ raw c_rsquare :: raw c_lparen :: u ++ raw c_rparen :: v
    /\ List.length a < List.length us /\ absent c_rsquare t.
Definition hfol (x : uitem) (r : list uitem) : Prop := match x with UText us => ~ uopens us (flat_map uflat r) | _ => True end.
Definition herase (x : uitem) : head_node :=
  match x with UAnchor t u => HAnchor (chars t) (chars u) | _ => HText (chars (uflat x)) end.
Definition hgoods (l : list uitem) : Prop := Forall hgood l /\ chain (texts_apart utxt) l /\ fols hfol l.

Lemma hflat_nonempty : forall x, hgood x -> uflat x <> [].
Proof. intros [] G; cbn in *; try discriminate. exact G. Qed.

Lemma hseams : forall l B, hgoods l -> seam (uflats l) B -> seams uflat l B.
Proof.
  induction l as [|x l IH]; intros B (G & Ch & Fo) Hs; [exact I|]. inversion G as [|? ? Gx Gl]; subst. destruct Ch as [Ch0 Ch]. destruct Fo as [Fo0 Fo]. unfold uflats in *. cbn [flat_map] in Hs.
  assert (Hd : l = [] \/ exists y l', l = y :: l') by (destruct l; eauto).
  destruct Hd as [->|(y & l' & ->)].
  { cbn [flat_map] in Hs. rewrite app_nil_r in Hs. split; [exact Hs|exact I]. }
  split.
  2:{ apply IH; [split; [exact Gl|split; [exact Ch|exact Fo]]|]. destruct (seam_tail _ _ _ Hs) as [X|X]; [|exact X]. exfalso. inversion Gl as [|? ? Gy _]; subst. cbn [flat_map] in X.
      apply app_eq_nil in X. exact (hflat_nonempty y Gy (proj1 X)). }
  inversion Gl as [|? ? Gy _]; subst. cbn [flat_map]. rewrite <- app_assoc. generalize (flat_map uflat l' ++ B). intros R.
  destruct x as [us|us|us|us|us|t u|vs]; try contradiction.
  - destruct y as [ws|ws|ws|ws|ws|a w|ws]; try contradiction; [exfalso; apply Ch0; reflexivity|]. cbn [uflat]. unfold ulink. rewrite <- !app_assoc. cbn [app].
    apply seam_special; try reflexivity; try discriminate. intros (q & ->). apply Fo0. exists q, (raw c_lsquare :: a), w, (flat_map uflat l').
    split; [|split].
    + cbn [flat_map uflat]. unfold ulink. repeat (rewrite <- app_assoc; cbn [app]). reflexivity.
    + rewrite app_length. cbn. lia.
    + intros [X|X]; [discriminate|]. exact (proj1 Gy X).
  - cbn [uflat]. unfold ulink. rewrite !app_assoc. apply seam_delim; [left; reflexivity|discriminate].
Qed.

Lemma heading_items : forall s st b ts l B n, cov s b ts (uflats l ++ B) -> hgoods l -> seam (uflats l) B -> calm st b (uflats l) B ->
  ustop st (aft b (uflats l)) B = true -> List.length ts < n ->
  exists k ts1 ts2, fitems fanchor n st [] ts = (k, ts2) /\ flat_map (head_of s) k = map herase l /\ cov s (aft b (uflats l)) ts2 B /\ ts = ts1 ++ ts2.
Proof.
  intros s st b ts l B n H G Hs Hc Hst Hn.
  destruct (fitems_units fanchor st s uflat utxt hgood (head_of s) herase hfol hflat_nonempty) with (l := l) (n := n) (b := b) (ts := ts) (B := B) (acc := @nil token)
    as (k & ts1 & ts2 & E1 & E2 & E3 & E4); auto.
  - intros x r A0 A b0 t ts0 B0 T Gx Fx E NA C Sx Ux. destruct x as [us|us|us|us|us|a w|ws]; try discriminate. cbn in E. subst us.
    destruct (fanchor st (t :: ts0)) as [[x rest]|] eqn:F; [|reflexivity]. exfalso. apply Fx.
    assert (NA' : A ++ flat_map uflat r <> []) by (intros X; apply app_eq_nil in X; destruct X; congruence).
    destruct (fanchor_opens _ _ _ _ _ _ _ _ C Sx NA' Ux F) as (a & u & v & X & Y).
    exists A0, a, u, v. split; [rewrite <- app_assoc; f_equal; exact X|]. split; [|exact Y]. rewrite app_length. destruct A; [congruence|cbn; lia].
  - intros x ts0 T Gx E. destruct x as [us|us|us|us|us|a w|ws]; try discriminate. cbn in *. rewrite E. reflexivity.
  - intros x b0 ts0 B0 T Gx C Sx Cx. destruct x as [us|us|us|us|us|t u|ws]; try discriminate; try contradiction. destruct Gx as (G1 & G2 & G3).
    destruct (anchor_units _ _ _ _ _ _ _ C G1 G2 G3 Cx) as (x & w & tx & ts2 & F1 & _ & F2 & F3 & F4). exists x, w, tx, ts2. auto.
  - apply G.
  - apply G.
  - apply G.
  - apply hseams; assumption.
  - exists k, ts1, ts2. auto.
Qed.
