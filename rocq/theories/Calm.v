(** Conditions on units under which no stop condition holds inside a text. *)
From Coq Require Import String.
From Verif Require Import Base Lexer LexSpec LexProofs LexFacts Ops Parser FParser TokFacts TreeAst Ast Tame Units ULex Stops Inline AstUnits.

(** ** Missing patterns *)

Definition nosub (p us : list uchar) : Prop := forall a b, us <> a ++ p ++ b.

Lemma no2_nosub : forall c d us, no2 c d us <-> nosub [raw c; raw d] us.
Proof. intros. split; intros H a b; exact (H a b). Qed.

Lemma nosub_nil : forall p, p <> [] -> nosub p [].
Proof. intros p NE a b E. symmetry in E. apply app_eq_nil in E. destruct E as [_ E]. apply app_eq_nil in E. destruct E as [E _]. contradiction. Qed.

Lemma nosub_glue_l : forall p A d B, ~ In d p -> nosub p (A ++ [d]) -> nosub p B -> nosub p (A ++ d :: B).
Proof.
  intros p A d B Nd HA HB a b E. change (d :: B) with ([d] ++ B) in E. rewrite app_assoc in E. apply app_eq_app in E. destruct E as (l & [[E1 E2]|[E1 E2]]).
  - apply app_eq_app in E2. destruct E2 as (m & [[E3 E4]|[E3 E4]]).
    + destruct l as [|u l]; [|destruct m as [|u' m]].
      * cbn in *. destruct p as [|q p].
        { exact (HB [] B eq_refl). }
        { symmetry in E3. apply (HB [] b). cbn. rewrite E4. cbn. rewrite E3. reflexivity. }
      * rewrite app_nil_r in E3. subst. apply (HA a []). rewrite E1. rewrite app_nil_r. reflexivity.
      * apply Nd. rewrite E3. apply in_app_iff. left. destruct (@exists_last _ (u :: l)) as (x & y & Ex); [discriminate|]. rewrite Ex in *.
        rewrite app_assoc in E1. apply app_inj_tail in E1. destruct E1 as [_ <-]. apply in_app_iff. right. left. reflexivity.
    + apply (HA a m). rewrite E1, E3. reflexivity.
  - destruct l as [|u l].
    + rewrite app_nil_r in E1. subst a. cbn in E2. apply (HB [] b). exact E2.
    + apply (HB (u :: l) b). rewrite E2. reflexivity.
Qed.

Lemma nosub_prefix : forall p A B, nosub p (A ++ B) -> nosub p A.
Proof. intros p A B H a b ->. apply (H a (b ++ B)). rewrite <- !app_assoc. reflexivity. Qed.
Lemma nosub_suffix : forall p A B, nosub p (A ++ B) -> nosub p B.
Proof. intros p A B H a b ->. apply (H (A ++ a) b). rewrite <- !app_assoc. reflexivity. Qed.
Lemma nosub_absent : forall p d us, In d p -> ~ In d us -> nosub p us.
Proof. intros p d us H N a b ->. apply N. rewrite !in_app_iff. auto. Qed.
Lemma nosub_one : forall p d, ~ In d p -> p <> [] -> nosub p [d].
Proof.
  intros p d Nd NE. apply (nosub_glue_l p [] d []); [exact Nd| |apply nosub_nil; exact NE].
  intros a b E. destruct p as [|q p]; [congruence|]. apply Nd. cbn [app] in E; assert (Hq : In q [d]) by (rewrite E, in_app_iff; right; left; reflexivity).
  destruct Hq as [->|[]]. left. reflexivity.
Qed.
Lemma nosub_snoc : forall p A d, ~ In d p -> p <> [] -> nosub p A -> nosub p (A ++ [d]).
Proof.
  intros p A d Nd NE HA a b E. destruct b as [|b0 b] using rev_ind.
  - rewrite app_nil_r in E. destruct (@exists_last _ p NE) as (x & y & ->). rewrite app_assoc in E. apply app_inj_tail in E. destruct E as [_ <-]. apply Nd. apply in_app_iff. right. left. reflexivity.
  - rewrite !app_assoc in E. apply app_inj_tail in E. destruct E as [-> _]. apply (HA a b). rewrite <- app_assoc. reflexivity.
Qed.
Lemma nosub_cons : forall p d B, ~ In d p -> p <> [] -> nosub p B -> nosub p (d :: B).
Proof. intros p d B Nd NE HB. apply (nosub_glue_l p [] d B); [exact Nd|apply nosub_one; assumption|exact HB]. Qed.
(** Two parts with a foreign unit next to the cut. *)
Lemma nosub_app : forall p A B, p <> [] -> nosub p A -> nosub p B ->
  (A = [] \/ (exists A0 d, A = A0 ++ [d] /\ ~ In d p) \/ (exists d B0, B = d :: B0 /\ ~ In d p)) -> nosub p (A ++ B).
Proof.
  intros p A B NE HA HB [->|[(A0 & d & -> & Nd)|(d & B0 & -> & Nd)]].
  - exact HB.
  - rewrite <- app_assoc. apply nosub_glue_l; assumption.
  - apply nosub_glue_l; [exact Nd|apply nosub_snoc; assumption|]. apply (nosub_suffix p [d]). exact HB.
Qed.
(** From the characters. *)
Lemma nosub_chars : forall p us, ~ has (chars p) (chars us) -> nosub p us.
Proof. intros p us H a b ->. apply H. exists (chars a), (chars b). rewrite !chars_app. reflexivity. Qed.
Lemma more_nosub : forall C p a b, Forall (fun u => fst u = false) p -> more C a b -> nosub p a -> nosub p b.
Proof.
  intros C p a b F M H x y ->. unfold more in M. apply Forall2_app_inv_r in M. destruct M as (x' & r & _ & M & ->). apply Forall2_app_inv_r in M. destruct M as (p' & y' & M & _ & ->).
  assert (E : p' = p); [|subst; apply (H x' y'); reflexivity].
  clear - F M. induction M as [|u v a b (H1 & H2 & H3) M IH]; [reflexivity|]. inversion F as [|? ? F0 F1]; subst. rewrite (IH F1). f_equal.
  destruct u as [eu cu], v as [ev cv]; cbn in *. subst. destruct eu; [specialize (H2 eq_refl); discriminate|reflexivity].
Qed.

(** ** Patterns and inline nodes *)

Definition delims : list char := [c_star; c_underscore; c_tilde; c_backtick; c_lsquare; c_rsquare; c_lparen; c_rparen].
(** A pattern of characters that are no inline delimiters. *)
Definition nodelim (p : list uchar) : Prop := Forall (fun u => ~ In (snd u) delims) p.
Lemma nodelim_in : forall p c, nodelim p -> In c delims -> ~ In (raw c) p.
Proof. intros p c H Hc Hi. unfold nodelim in H. rewrite Forall_forall in H. exact (H _ Hi Hc). Qed.

Definition vparts (v : vitem) : list (list uchar) := match v with VText us | VItalic us | VStrike us => [us] end.
Definition uparts (x : uitem) : list (list uchar) :=
  match x with
  | UText us | UItalic us | UStrike us | UEmph us | UCode us => [us]
  | UAnchor t u => [t; u]
  | UBold l => flat_map vparts l
  end.

Lemma wrap_nosub : forall p d us, p <> [] -> (forall u, In u d -> ~ In u p) -> nosub p us -> nosub p (wrap d us).
Proof.
  intros p d us NE Hd H. unfold wrap.
  assert (D : forall X, nosub p X -> nosub p (d ++ X)).
  { revert Hd. clear - NE. induction d as [|u d IH]; intros Hd X HX; [exact HX|]. cbn [app]. apply nosub_cons; [apply Hd; left; reflexivity|exact NE|].
    apply IH; [|exact HX]. intros w Hw. apply Hd. right. exact Hw. }
  apply D. assert (D2 : forall X, nosub p X -> nosub p (X ++ d)).
  { revert Hd. clear - NE. induction d as [|u d IH] using rev_ind; intros Hd X HX; [rewrite app_nil_r; exact HX|]. rewrite app_assoc. apply nosub_snoc; [apply Hd, in_app_iff; right; left; reflexivity|exact NE|].
    apply IH; [|exact HX]. intros w Hw. apply Hd. apply in_app_iff. left. exact Hw. }
  apply D2. exact H.
Qed.

Definition hd_in (cs : list char) (us : list uchar) : Prop := exists c r, us = raw c :: r /\ In c cs.
Definition last_in (cs : list char) (us : list uchar) : Prop := exists c r, us = r ++ [raw c] /\ In c cs.

Ltac indel := cbn; tauto.
Lemma wrap_hd : forall c n us, In c delims -> hd_in delims (wrap (repeat (raw c) (S n)) us).
Proof. intros c n us H. exists c. eexists. split; [reflexivity|exact H]. Qed.
Lemma repeat_snoc : forall X (x : X) n, repeat x (S n) = repeat x n ++ [x].
Proof. intros X x n. induction n as [|n IH]; [reflexivity|]. cbn [repeat app]. cbn [repeat] in IH. rewrite IH at 1. reflexivity. Qed.
Lemma wrap_last : forall c n us, In c delims -> last_in delims (wrap (repeat (raw c) (S n)) us).
Proof.
  intros c n us H. exists c. unfold wrap. rewrite (repeat_snoc _ (raw c) n). rewrite !app_assoc. eexists. split; [reflexivity|exact H].
Qed.
Lemma vflat_ends : forall v, vtxt v = false -> hd_in delims (vflat v) /\ last_in delims (vflat v).
Proof.
  intros [us|us|us] T; try discriminate; cbn [vflat]; split; [apply (wrap_hd c_underscore 0)|apply (wrap_last c_underscore 0)|apply (wrap_hd c_tilde 1)|apply (wrap_last c_tilde 1)]; indel.
Qed.
Lemma uflat_ends : forall x, utxt x = false -> hd_in delims (uflat x) /\ last_in delims (uflat x).
Proof.
  intros [us|us|us|us|us|t u|l] T; try discriminate; cbn [uflat]; split;
    [apply (wrap_hd c_underscore 0)|apply (wrap_last c_underscore 0)|apply (wrap_hd c_tilde 1)|apply (wrap_last c_tilde 1)|apply (wrap_hd c_star 0)|apply (wrap_last c_star 0)
    |apply (wrap_hd c_backtick 0)|apply (wrap_last c_backtick 0)| | |apply (wrap_hd c_star 1)|apply (wrap_last c_star 1)]; try indel.
  - exists c_lsquare. eexists. split; [reflexivity|indel].
  - exists c_rparen. unfold ulink. rewrite !app_assoc. eexists. split; [reflexivity|indel].
Qed.

Lemma items_nosub : forall X (fl : X -> list uchar) (txt : X -> bool) p l, p <> [] -> nodelim p ->
  (forall x, txt x = false -> hd_in delims (fl x) /\ last_in delims (fl x)) -> chain (texts_apart txt) l ->
  (forall x, In x l -> nosub p (fl x)) -> nosub p (flat_map fl l).
Proof.
  intros X fl txt p l NE Hp He. induction l as [|x l IH]; intros Ch H; [apply nosub_nil; exact NE|]. cbn [flat_map]. destruct Ch as [Ch0 Ch].
  assert (HB : nosub p (flat_map fl l)) by (apply IH; [exact Ch|intros; apply H; right; assumption]).
  destruct (txt x) eqn:T.
  - destruct l as [|y l]; [cbn [flat_map]; rewrite app_nil_r; apply H; left; reflexivity|]. apply nosub_app; [exact NE|apply H; left; reflexivity|exact HB|]. right. right.
    destruct (txt y) eqn:Ty; [exfalso; exact (Ch0 T Ty)|]. destruct (He y Ty) as [(c & r & E & Hc) _]. exists (raw c), (r ++ flat_map fl l). cbn [flat_map]. rewrite E.
    split; [reflexivity|exact (nodelim_in _ _ Hp Hc)].
  - apply nosub_app; [exact NE|apply H; left; reflexivity|exact HB|]. right. left. destruct (He x T) as [_ (c & r & E & Hc)]. exists r, (raw c). split; [exact E|exact (nodelim_in _ _ Hp Hc)].
Qed.

Lemma vflat_nosub : forall p v, p <> [] -> nodelim p -> Forall (nosub p) (vparts v) -> nosub p (vflat v).
Proof.
  intros p v NE Hp H. destruct v as [us|us|us]; cbn [vflat vparts] in *; inversion H as [|? ? H0 _]; subst; [exact H0| |]; (apply wrap_nosub; [exact NE| |exact H0]);
    intros u Hu; repeat (destruct Hu as [<-|Hu]; [apply nodelim_in; [exact Hp|indel]|]); contradiction.
Qed.
Lemma uflat_nosub : forall p x, p <> [] -> nodelim p -> ugood x -> Forall (nosub p) (uparts x) -> nosub p (uflat x).
Proof.
  intros p x NE Hp G H. 
  assert (W : forall c n us, In c delims -> nosub p us -> nosub p (wrap (repeat (raw c) n) us)).
  { intros c n us Hc Hu. apply wrap_nosub; [exact NE| |exact Hu]. intros u Hi. apply repeat_spec in Hi. subst u. apply nodelim_in; assumption. }
  destruct x as [us|us|us|us|us|t u|l]; cbn [uflat uparts] in *; [inversion H as [|? ? H0 H1]; subst..|].
  - exact H0.
  - apply (W c_underscore 1); [indel|exact H0].
  - apply (W c_tilde 2); [indel|exact H0].
  - apply (W c_star 1); [indel|exact H0].
  - apply (W c_backtick 1); [indel|exact H0].
  - inversion H1 as [|? ? H2 _]; subst. unfold ulink. cbn [app].
    apply nosub_cons; [apply nodelim_in; [exact Hp|indel]|exact NE|]. apply nosub_app; [exact NE|exact H0| |].
    + apply nosub_cons; [apply nodelim_in; [exact Hp|indel]|exact NE|]. apply nosub_cons; [apply nodelim_in; [exact Hp|indel]|exact NE|].
      apply nosub_snoc; [apply nodelim_in; [exact Hp|indel]|exact NE|exact H2].
    + right. right. eexists _, _. split; [reflexivity|apply nodelim_in; [exact Hp|indel]].
  - apply (W c_star 2); [indel|]. destruct G as (_ & _ & Ch). apply (items_nosub _ vflat vtxt); auto.
    + apply vflat_ends.
    + apply vchain. exact Ch.
    + intros v Hv. apply vflat_nosub; auto. apply Forall_forall. intros q Hq. rewrite Forall_forall in H. apply H. apply in_flat_map. exists v. auto.
Qed.

Lemma ugoods_nosub : forall p l, p <> [] -> nodelim p -> ugoods l -> (forall x, In x l -> Forall (nosub p) (uparts x)) -> nosub p (uflats l).
Proof.
  intros p l NE Hp [G Ch] H. apply (items_nosub _ uflat utxt); auto.
  - apply uflat_ends.
  - apply uchain. exact Ch.
  - intros x Hx. rewrite Forall_forall in G. apply uflat_nosub; auto.
Qed.

(** *** Where a pattern occurs *)

(** Every occurrence of [p] in [us] lies in one of the parts [qs]. *)
Definition within (p us : list uchar) (qs : list (list uchar)) : Prop :=
  forall a b, us = a ++ p ++ b -> exists q a' b' c, In q qs /\ q = a' ++ p ++ b' /\ b = b' ++ c.
Lemma within_self : forall p us, within p us [us].
Proof. intros p us a b E. exists us, a, b, []. split; [left; reflexivity|]. split; [exact E|]. rewrite app_nil_r. reflexivity. Qed.
Lemma within_nil : forall p qs, p <> [] -> within p [] qs.
Proof. intros p qs NE a b E. exfalso. destruct a; [|discriminate]. destruct p; [congruence|discriminate]. Qed.
Lemma within_sub : forall p us qs rs, (forall q, In q qs -> In q rs) -> within p us qs -> within p us rs.
Proof. intros p us qs rs H W a b E. destruct (W a b E) as (q & a' & b' & c & H1 & H2). exists q, a', b', c. split; [exact (H q H1)|exact H2]. Qed.
Lemma foreign_split : forall (p A : list uchar) d B a b, p <> [] -> ~ In d p -> A ++ d :: B = a ++ p ++ b ->
  (exists b', A = a ++ p ++ b' /\ b = b' ++ d :: B) \/ (exists a', a = A ++ d :: a' /\ B = a' ++ p ++ b).
Proof.
  intros p A d B a b NE Nd E. apply app_eq_app in E. destruct E as (l & [[E1 E2]|[E1 E2]]).
  - apply app_eq_app in E2. destruct E2 as (m & [[E3 E4]|[E3 E4]]).
    + destruct m as [|e m].
      * rewrite app_nil_r in E3. subst l. left. exists []. rewrite app_nil_r. split; [exact E1|]. cbn [app] in *. symmetry. exact E4.
      * injection E4 as <- _. exfalso. apply Nd. rewrite E3. apply in_elt.
    + left. exists m. rewrite E1, E3. split; [reflexivity|exact E4].
  - destruct l as [|e l].
    + destruct p as [|q p]; [congruence|]. injection E2 as -> _. exfalso. apply Nd. left. reflexivity.
    + injection E2 as <- E2. right. exists l. split; assumption.
Qed.
Lemma within_glue : forall p A d B qs rs, p <> [] -> ~ In d p -> within p A qs -> within p B rs -> within p (A ++ d :: B) (qs ++ rs).
Proof.
  intros p A d B qs rs NE Nd WA WB a b E. destruct (foreign_split _ _ _ _ _ _ NE Nd E) as [(b1 & E1 & ->)|(a1 & -> & E1)].
  - destruct (WA _ _ E1) as (q & a' & b' & c & H1 & H2 & ->). exists q, a', b', (c ++ d :: B). split; [apply in_app_iff; left; exact H1|]. split; [exact H2|]. rewrite <- app_assoc. reflexivity.
  - destruct (WB _ _ E1) as (q & a' & b' & c & H1 & H2). exists q, a', b', c. split; [apply in_app_iff; right; exact H1|exact H2].
Qed.
Lemma within_snoc : forall p A d qs, p <> [] -> ~ In d p -> within p A qs -> within p (A ++ [d]) qs.
Proof. intros p A d qs NE Nd W. rewrite <- (app_nil_r qs). apply within_glue; [exact NE|exact Nd|exact W|apply within_nil; exact NE]. Qed.
Lemma within_cons : forall p d B qs, p <> [] -> ~ In d p -> within p B qs -> within p (d :: B) qs.
Proof. intros p d B qs NE Nd W. apply (within_glue p [] d B [] qs); [exact NE|exact Nd|apply within_nil; exact NE|exact W]. Qed.
Lemma within_app : forall p A B qs rs, p <> [] -> within p A qs -> within p B rs ->
  (A = [] \/ B = [] \/ (exists A0 d, A = A0 ++ [d] /\ ~ In d p) \/ (exists d B0, B = d :: B0 /\ ~ In d p)) -> within p (A ++ B) (qs ++ rs).
Proof.
  intros p A B qs rs NE WA WB [->|[->|[(A0 & d & -> & Nd)|(d & B0 & -> & Nd)]]].
  - apply (within_sub p B rs); [intros; apply in_app_iff; right; assumption|exact WB].
  - rewrite app_nil_r. apply (within_sub p A qs); [intros; apply in_app_iff; left; assumption|exact WA].
  - intros a b E. rewrite <- app_assoc in E. destruct (foreign_split _ _ _ _ _ _ NE Nd E) as [(b1 & E1 & ->)|(a1 & -> & E1)].
    + destruct (WA a (b1 ++ [d])) as (q & a' & b' & c & H1 & H2 & H3); [rewrite E1, <- !app_assoc; reflexivity|]. exists q, a', b', (c ++ B). split; [apply in_app_iff; left; exact H1|]. split; [exact H2|].
      rewrite app_assoc, <- H3, <- app_assoc. reflexivity.
    + destruct (WB _ _ E1) as (q & a' & b' & c & H1 & H2). exists q, a', b', c. split; [apply in_app_iff; right; exact H1|exact H2].
  - intros a b E. destruct (foreign_split _ _ _ _ _ _ NE Nd E) as [(b1 & E1 & ->)|(a1 & -> & E1)].
    + destruct (WA _ _ E1) as (q & a' & b' & c & H1 & H2 & ->). exists q, a', b', (c ++ d :: B0). split; [apply in_app_iff; left; exact H1|]. split; [exact H2|]. rewrite <- app_assoc. reflexivity.
    + destruct (WB (d :: a1) b) as (q & a' & b' & c & H1 & H2); [rewrite E1; reflexivity|]. exists q, a', b', c. split; [apply in_app_iff; right; exact H1|exact H2].
Qed.
Lemma wrap_within : forall p d us qs, p <> [] -> (forall u, In u d -> ~ In u p) -> within p us qs -> within p (wrap d us) qs.
Proof.
  intros p d us qs NE Hd H. unfold wrap.
  assert (D2 : within p (us ++ d) qs).
  { revert Hd. induction d as [|u d IH] using rev_ind; intros Hd; [rewrite app_nil_r; exact H|]. rewrite app_assoc. apply within_snoc; [exact NE|apply Hd, in_app_iff; right; left; reflexivity|].
    apply IH. intros w Hw. apply Hd. apply in_app_iff. left. exact Hw. }
  set (R := us ++ d) in *. clearbody R. clear H us. induction d as [|u d IH]; [exact D2|]. cbn [app]. apply within_cons; [exact NE|apply Hd; left; reflexivity|].
  apply IH. intros w Hw. apply Hd. right. exact Hw.
Qed.
Lemma items_within : forall X (fl : X -> list uchar) (pa : X -> list (list uchar)) (txt : X -> bool) p l, p <> [] -> nodelim p ->
  (forall x, txt x = false -> hd_in delims (fl x) /\ last_in delims (fl x)) -> chain (texts_apart txt) l ->
  (forall x, In x l -> within p (fl x) (pa x)) -> within p (flat_map fl l) (flat_map pa l).
Proof.
  intros X fl pa txt p l NE Hp He. induction l as [|x l IH]; intros Ch H; [apply within_nil; exact NE|]. cbn [flat_map]. destruct Ch as [Ch0 Ch].
  assert (HB : within p (flat_map fl l) (flat_map pa l)) by (apply IH; [exact Ch|intros; apply H; right; assumption]).
  apply within_app; [exact NE|apply H; left; reflexivity|exact HB|]. destruct (txt x) eqn:T.
  - destruct l as [|y l]; [right; left; reflexivity|]. right. right. right. destruct (txt y) eqn:Ty; [exfalso; exact (Ch0 T Ty)|].
    destruct (He y Ty) as [(c & r & E & Hc) _]. exists (raw c), (r ++ flat_map fl l). cbn [flat_map]. rewrite E. split; [reflexivity|exact (nodelim_in _ _ Hp Hc)].
  - right. right. left. destruct (He x T) as [_ (c & r & E & Hc)]. exists r, (raw c). split; [exact E|exact (nodelim_in _ _ Hp Hc)].
Qed.
Lemma vflat_within : forall p v, p <> [] -> nodelim p -> within p (vflat v) (vparts v).
Proof.
  intros p v NE Hp. destruct v as [us|us|us]; cbn [vflat vparts]; [apply within_self| |]; (apply wrap_within; [exact NE| |apply within_self]);
    intros u Hu; repeat (destruct Hu as [<-|Hu]; [apply nodelim_in; [exact Hp|indel]|]); contradiction.
Qed.
Lemma uflat_within : forall p x, p <> [] -> nodelim p -> ugood x -> within p (uflat x) (uparts x).
Proof.
  intros p x NE Hp G.
  assert (W : forall c n us qs, In c delims -> within p us qs -> within p (wrap (repeat (raw c) n) us) qs).
  { intros c n us qs Hc Hu. apply wrap_within; [exact NE| |exact Hu]. intros u Hi. apply repeat_spec in Hi. subst u. apply nodelim_in; assumption. }
  destruct x as [us|us|us|us|us|t u|l]; cbn [uflat uparts].
  - apply within_self.
  - apply (W c_underscore 1); [indel|apply within_self].
  - apply (W c_tilde 2); [indel|apply within_self].
  - apply (W c_star 1); [indel|apply within_self].
  - apply (W c_backtick 1); [indel|apply within_self].
  - unfold ulink. cbn [app]. apply within_cons; [exact NE|apply nodelim_in; [exact Hp|indel]|]. change [t; u] with ([t] ++ [u]).
    apply within_glue; [exact NE|apply nodelim_in; [exact Hp|indel]|apply within_self|].
    apply within_cons; [exact NE|apply nodelim_in; [exact Hp|indel]|]. apply within_snoc; [exact NE|apply nodelim_in; [exact Hp|indel]|apply within_self].
  - apply (W c_star 2); [indel|]. destruct G as (_ & _ & Ch). apply (items_within _ vflat vparts vtxt); auto.
    + apply vflat_ends.
    + apply vchain. exact Ch.
    + intros v Hv. apply vflat_within; auto.
Qed.
Lemma ugoods_within : forall p l, p <> [] -> nodelim p -> ugoods l -> within p (uflats l) (flat_map uparts l).
Proof.
  intros p l NE Hp [G Ch]. apply (items_within _ uflat uparts utxt); auto.
  - apply uflat_ends.
  - apply uchain. exact Ch.
  - intros x Hx. rewrite Forall_forall in G. apply uflat_within; auto.
Qed.
Lemma hgoods_nosub : forall p l, p <> [] -> nodelim p -> hgoods l -> (forall x, In x l -> Forall (nosub p) (uparts x)) -> nosub p (uflats l).
Proof.
  intros p l NE Hp (G & Ch & _) H. apply (items_nosub _ uflat utxt); auto.
  - apply uflat_ends.
  - intros x Hx. rewrite Forall_forall in G. specialize (G x Hx). specialize (H x Hx). destruct x as [us|us|us|us|us|t u|l']; try contradiction.
    + inversion H; assumption.
    + apply uflat_nosub; auto.
Qed.

(** ** Calm texts *)

Lemma calm_intro : forall st A b B, (forall A1 A2, A = A1 ++ A2 -> A2 <> [] -> ustop st (aft b A1) (A2 ++ B) = false) -> calm st b A B.
Proof.
  intros st A. induction A as [|u A IH]; intros b B H; [exact I|]. split; [apply (H [] (u :: A)); [reflexivity|discriminate]|].
  apply IH. intros A1 A2 -> NE. exact (H (u :: A1) A2 eq_refl NE).
Qed.
Lemma calm_none : forall A b B, calm [] b A B.
Proof. intros A b B. apply calm_intro. intros A1 A2 _ NE. destruct A2; [congruence|reflexivity]. Qed.
Lemma calm_cons : forall c st A b B, calm [c] b A B -> calm st b A B -> calm (c :: st) b A B.
Proof.
  intros c st A. induction A as [|u A IH]; intros b B H1 H2; [exact I|]. destruct H1 as [H1 H1']. destruct H2 as [H2 H2']. split; [|apply IH; assumption].
  cbn [ustop existsb app] in *. apply orb_false_iff in H1. destruct H1 as [H1 _]. rewrite H1. exact H2.
Qed.
Definition cst (n : nat) : list stop_condition := repeat StopCollapsibleEnd n.
Lemma calm_cst1 : forall n b A B, calm [StopCollapsibleEnd] b A B -> calm (cst n) b A B.
Proof. intros n b A B H. induction n as [|n IH]; [apply calm_none|]. cbn [cst repeat]. apply calm_cons; [exact H|exact IH]. Qed.

Lemma aft_true : forall A b, aft b A = true -> (A = [] /\ b = true) \/ ends c_nl A.
Proof.
  intros A b H. destruct A as [|u A]; [left; auto|]. right. destruct (@exists_last _ (u :: A)) as (x & y & E); [discriminate|]. rewrite E in *. rewrite aft_app in H. cbn in H.
  exists x. unfold is_nl in H. apply andb_true_iff in H. destruct H as [H1 H2]. apply char_eqb_eq in H2. apply negb_true_iff in H1. rewrite (raw_eq y c_nl H1 H2). reflexivity.
Qed.
Lemma aft_ends : forall A b, A <> [] -> aft b A = true <-> ends c_nl A.
Proof.
  intros A b NE. split.
  - intros H. apply aft_true in H. destruct H as [[-> _]|H]; [congruence|exact H].
  - intros (r & ->). rewrite aft_app. reflexivity.
Qed.

Lemma is_nl_raw : forall u, is_nl u = true -> u = raw c_nl.
Proof. intros [e c] H. apply andb_true_iff in H. destruct H as [H1 H2]. apply char_eqb_eq in H2. apply negb_true_iff in H1. cbn in *. subst. reflexivity. Qed.

Lemma calm_term : forall b A B, nosub [raw c_nl; raw c_nl] A -> (ends c_nl A -> raw_at c_nl B = false) -> calm [StopTerminator] b A B.
Proof.
  intros b A B H He. apply calm_intro. intros A1 A2 -> NE. destruct A2 as [|u A2]; [congruence|]. cbn [ustop existsb app fires]. rewrite orb_false_r.
  destruct (raw2_at c_nl c_nl (u :: A2 ++ B)) eqn:E; [|reflexivity]. exfalso. apply raw2_at_true in E. destruct E as (r & E). injection E as -> E.
  destruct A2 as [|v A2].
  - cbn in E. specialize (He (ex_intro _ A1 eq_refl)). rewrite E in He. rewrite raw_at_raw in He. discriminate.
  - injection E as -> E. apply (H A1 A2). reflexivity.
Qed.
Definition cpat : list uchar := [raw c_nl; raw c_percent; raw c_rcurly].
Lemma calm_cend2 : forall n b A B, (n <> 0 -> (b = true -> raw2_at c_percent c_rcurly A = false) /\ nosub cpat A) ->
  (n <> 0 -> raw_at c_rcurly B = false /\ (ends c_nl A -> raw2_at c_percent c_rcurly B = false)) -> calm (cst n) b A B.
Proof.
  intros n b A B H HB. destruct n as [|n]; [apply calm_none|]. destruct (H ltac:(discriminate)) as [Hb Hp]. destruct (HB ltac:(discriminate)) as [B1 B2]. apply calm_cst1. apply calm_intro. intros A1 A2 -> NE.
  destruct A2 as [|u A2]; [congruence|]. cbn [ustop existsb fires app]. rewrite orb_false_r. apply orb_false_iff. split.
  - destruct (aft b A1) eqn:Eb; [|reflexivity]. cbn [andb]. destruct (raw2_at c_percent c_rcurly (u :: A2 ++ B)) eqn:E; [|reflexivity]. exfalso.
    apply raw2_at_true in E. destruct E as (r & E). injection E as -> E. destruct A2 as [|v A2].
    + cbn in E. rewrite E in B1. discriminate.
    + injection E as -> E. apply aft_true in Eb. destruct Eb as [[-> ->]|(r' & ->)]; [discriminate (Hb eq_refl)|]. apply (Hp r' A2). rewrite <- app_assoc. reflexivity.
  - destruct (is_nl u) eqn:Eu; [|reflexivity]. cbn [andb]. apply is_nl_raw in Eu. subst u. destruct (raw2_at c_percent c_rcurly (A2 ++ B)) eqn:E; [|reflexivity]. exfalso.
    destruct A2 as [|v A2]; [cbn [app] in E; rewrite B2 in E; [discriminate|exists A1; reflexivity]|].
    apply raw2_at_true in E. destruct E as (r & E). injection E as -> E.
    destruct A2 as [|w A2]; [cbn in E; subst B; discriminate|]. injection E as -> E. apply (Hp A1 A2). reflexivity.
Qed.
Lemma calm_cend : forall n b A B, (n <> 0 -> (b = true -> raw2_at c_percent c_rcurly A = false) /\ nosub cpat A) -> (B = [] \/ raw_at c_nl B = true) -> calm (cst n) b A B.
Proof.
  intros n b A B H HB. apply calm_cend2; [exact H|]. intros _. destruct HB as [->|HB]; [auto|]. apply raw_at_true in HB. destruct HB as (r & ->). auto.
Qed.
Lemma calm_hl : forall b A B, (forall A1 A2, A = A1 ++ A2 -> aft b A1 = true -> raw2_at c_bang c_bang A2 = false) -> (ends c_bang A -> raw_at c_bang B = false) -> calm [StopHighlightEnd] b A B.
Proof.
  intros b A B H HB. apply calm_intro. intros A1 A2 E NE. destruct A2 as [|u A2]; [congruence|]. cbn [ustop existsb fires app]. rewrite orb_false_r.
  destruct (aft b A1) eqn:Eb; [|reflexivity]. cbn [andb]. apply Nat.eqb_neq. intros L. destruct (lead_split c_bang (u :: A2 ++ B)) as [Es _]. rewrite L in Es. cbn [repeat app] in Es.
  injection Es as -> Es. destruct A2 as [|v A2].
  - cbn [app] in Es. specialize (HB (ex_intro _ A1 E)). rewrite Es in HB. rewrite raw_at_raw in HB. discriminate.
  - injection Es as ->. specialize (H A1 _ E Eb). rewrite raw2_at_raw in H. discriminate.
Qed.

(** ** More escapes in inline nodes *)

Definition shape (x : uitem) : nat :=
  match x with UText _ => 0 | UItalic _ => 1 | UStrike _ => 2 | UEmph _ => 3 | UCode _ => 4 | UAnchor _ _ => 5 | UBold _ => 6 end.
Definition vshape (v : vitem) : nat := match v with VText _ => 0 | VItalic _ => 1 | VStrike _ => 2 end.

Lemma more_ne : forall C a b, more C a b -> a <> [] -> b <> [].
Proof. intros C a b M H ->. apply H. inversion M. reflexivity. Qed.

Section More.
  Context (C : char -> Prop) (HC : forall c, C c -> ~ In c delims).

  Lemma more_wrap : forall c n us m, In c delims -> more C (wrap (repeat (raw c) n) us) m -> exists us', m = wrap (repeat (raw c) n) us' /\ more C us us'.
  Proof.
    intros c n us m Hc M. unfold wrap in M. apply more_split in M. destruct M as (d1 & m1 & -> & M1 & M). apply more_split in M. destruct M as (us' & d2 & -> & M2 & M3).
    assert (F : forall d, more C (repeat (raw c) n) d -> d = repeat (raw c) n).
    { intros d Md. apply (more_fixed C _ _ Md). intros x Hx Cx. apply (HC x Cx). clear - Hx Hc. induction n as [|n IH]; [contradiction|]. destruct Hx as [<-|Hx]; auto. }
    exists us'. rewrite (F _ M1), (F _ M3). auto.
  Qed.

  Lemma more_v : forall v m, more C (vflat v) m -> exists v', m = vflat v' /\ verase v' = verase v /\ vshape v' = vshape v /\ (vgood v -> vgood v').
  Proof.
    intros [us|us|us] m M; cbn [vflat] in M.
    - exists (VText m). cbn. rewrite (more_chars _ _ _ M). repeat split; try (eapply more_ne; [exact M|apply H]); eapply more_absent; try exact M; apply H.
    - destruct (more_wrap c_underscore 1 us m ltac:(indel) M) as (us' & -> & M'). exists (VItalic us'). cbn. rewrite (more_chars _ _ _ M'). repeat split. apply more_absent with (C := C) (a := us). exact M'.
    - destruct (more_wrap c_tilde 2 us m ltac:(indel) M) as (us' & -> & M'). exists (VStrike us'). cbn. rewrite (more_chars _ _ _ M'). repeat split; [eapply more_ne; [exact M'|apply H]|].
      apply more_absent with (C := C) (a := us); [exact M'|apply H].
  Qed.
  Lemma more_vs : forall l m, more C (flat_map vflat l) m -> exists l', m = flat_map vflat l' /\ map verase l' = map verase l /\ map vshape l' = map vshape l /\ (Forall vgood l -> Forall vgood l').
  Proof.
    induction l as [|v l IH]; intros m M.
    - apply more_nil in M. subst m. exists []. auto.
    - cbn [flat_map] in M. apply more_split in M. destruct M as (m1 & m2 & -> & M1 & M2). destruct (more_v v m1 M1) as (v' & -> & E1 & E2 & E3). destruct (IH m2 M2) as (l' & -> & F1 & F2 & F3).
      exists (v' :: l'). cbn [flat_map map]. rewrite E1, E2, F1, F2. repeat split. intros G. inversion G; subst. constructor; auto.
  Qed.
  Lemma vchain_shape : forall l l', map vshape l' = map vshape l -> chain vnext l -> chain vnext l'.
  Proof.
    induction l as [|v l IH]; intros l' E Ch; destruct l' as [|v' l']; try discriminate; [exact I|]. injection E as E1 E2. destruct Ch as [Ch0 Ch]. split; [|exact (IH l' E2 Ch)].
    destruct l as [|w l]; destruct l' as [|w' l']; try discriminate; [exact I|]. injection E2 as E2 _. destruct v, w, v', w'; try discriminate; auto.
  Qed.
  Lemma more_u : forall x m, more C (uflat x) m -> exists x', m = uflat x' /\ uerase x' = uerase x /\ shape x' = shape x /\ (ugood x -> ugood x').
  Proof.
    intros x m M.
    destruct x as [us|us|us|us|us|t u|l]; cbn [uflat] in M.
    - exists (UText m). cbn. rewrite (more_chars _ _ _ M). repeat split; try (eapply more_ne; [exact M|apply H]); eapply more_absent; try exact M; apply H.
    - destruct (more_wrap c_underscore 1 us m ltac:(indel) M) as (us' & -> & M'). exists (UItalic us'). cbn. rewrite (more_chars _ _ _ M'). repeat split. apply more_absent with (C := C) (a := us). exact M'.
    - destruct (more_wrap c_tilde 2 us m ltac:(indel) M) as (us' & -> & M'). exists (UStrike us'). cbn. rewrite (more_chars _ _ _ M'). repeat split; [eapply more_ne; [exact M'|apply H]|].
      apply more_absent with (C := C) (a := us); [exact M'|apply H].
    - destruct (more_wrap c_star 1 us m ltac:(indel) M) as (us' & -> & M'). exists (UEmph us'). cbn. rewrite (more_chars _ _ _ M'). repeat split; [eapply more_ne; [exact M'|apply H]|].
      apply more_absent with (C := C) (a := us); [exact M'|apply H].
    - destruct (more_wrap c_backtick 1 us m ltac:(indel) M) as (us' & -> & M'). exists (UCode us'). cbn. rewrite (more_chars _ _ _ M'). repeat split; [eapply more_ne; [exact M'|apply H]|].
      apply more_absent with (C := C) (a := us); [exact M'|apply H].
    - assert (F : forall c d, In c delims -> more C [raw c] d -> d = [raw c]).
      { intros c d Hc Md. apply (more_fixed C _ _ Md). intros y [<-|[]] Cx. exact (HC _ Cx Hc). }
      unfold ulink in M. apply more_split in M. destruct M as (d1 & m1 & -> & D1 & M). apply more_split in M. destruct M as (t' & m2 & -> & Mt & M).
      apply more_split in M. destruct M as (d2 & m3 & -> & D2 & M). apply more_split in M. destruct M as (d3 & m4 & -> & D3 & M). apply more_split in M. destruct M as (u' & d4 & -> & Mu & D4).
      rewrite (F c_lsquare _ ltac:(indel) D1), (F c_rsquare _ ltac:(indel) D2), (F c_lparen _ ltac:(indel) D3), (F c_rparen _ ltac:(indel) D4).
      exists (UAnchor t' u'). cbn. rewrite (more_chars _ _ _ Mt), (more_chars _ _ _ Mu). repeat split; eapply more_absent; try exact Mt; try exact Mu; apply H.
    - destruct (more_wrap c_star 2 _ m ltac:(indel) M) as (us' & -> & M'). destruct (more_vs l us' M') as (l' & -> & E1 & E2 & E3). exists (UBold l'). cbn. rewrite E1. repeat split.
      + destruct H as (H & _). destruct l'; [|discriminate]. destruct l; [congruence|discriminate].
      + apply E3. apply H.
      + apply (vchain_shape l); [exact E2|apply H].
  Qed.
  Lemma uchain_shape : forall l l', map shape l' = map shape l -> chain unext l -> chain unext l'.
  Proof.
    induction l as [|v l IH]; intros l' E Ch; destruct l' as [|v' l']; try discriminate; [exact I|]. injection E as E1 E2. destruct Ch as [Ch0 Ch]. split; [|exact (IH l' E2 Ch)].
    destruct l as [|w l]; destruct l' as [|w' l']; try discriminate; [exact I|]. injection E2 as E2 _. destruct v, w, v', w'; try discriminate; auto.
  Qed.
  Lemma more_us : forall l m, more C (uflats l) m -> exists l', m = uflats l' /\ map uerase l' = map uerase l /\ map shape l' = map shape l /\ (ugoods l -> ugoods l').
  Proof.
    intros l m M. assert (X : exists l', m = uflats l' /\ map uerase l' = map uerase l /\ map shape l' = map shape l /\ (Forall ugood l -> Forall ugood l')).
    { revert m M. induction l as [|v l IH]; intros m M.
      - apply more_nil in M. subst m. exists []. auto.
      - unfold uflats in *. cbn [flat_map] in M. apply more_split in M. destruct M as (m1 & m2 & -> & M1 & M2). destruct (more_u v m1 M1) as (v' & -> & E1 & E2 & E3). destruct (IH m2 M2) as (l' & -> & F1 & F2 & F3).
        exists (v' :: l'). cbn [flat_map map]. rewrite E1, E2, F1, F2. repeat split. intros G. inversion G; subst. constructor; auto. }
    destruct X as (l' & E1 & E2 & E3 & E4). exists l'. repeat (split; [assumption|]). intros [G Ch]. split; [apply E4; exact G|]. exact (uchain_shape _ _ E3 Ch).
  Qed.
End More.
