(** The text of lists as units: what [Display] writes, and that the parser reads it back. *)
From Coq Require Import String.
From Verif Require Import Base Lexer LexSpec LexProofs LexFacts Ops Parser FParser TokFacts ToYamd TreeAst Ast AstSpec Tame Units ULex Stops Inline AstUnits Calm Blocks Docs Highlight Lists UBlocks.

Definition is_mark (c : char) : Prop := c = c_minus \/ c = c_plus.
Lemma mchar_mark : forall ty, is_mark (mchar ty).
Proof. intros []; [left|right]; reflexivity. Qed.
Lemma mark_ne : forall c d, is_mark c -> d <> c_minus -> d <> c_plus -> c <> d.
Proof. intros c d [->| ->] H1 H2 X; auto. Qed.
Lemma mark_free : forall c, is_mark c -> ~ In c delims.
Proof. intros c [->| ->]; nodel. Qed.

(** ** Escaped markers *)

Lemma markers_more : forall c us, is_mark c -> more is_mark us (markers c us).
Proof. intros c us H. eapply more_weaken; [|apply umark0_more]. intros d [X|[X|[X|[]]]]; try discriminate X. injection X as <-. exact H. Qed.
Lemma marks_more : forall cs us, Forall is_mark cs -> more is_mark us (marks cs us).
Proof.
  induction cs as [|c cs IH]; intros us F; [apply more_refl|]. inversion F; subst. cbn [marks fold_left]. eapply more_trans; [apply (markers_more c); assumption|]. apply IH. assumption.
Qed.
Lemma marks_snoc : forall cs c us, marks (cs ++ [c]) us = markers c (marks cs us).
Proof. intros cs c us. unfold marks. apply fold_left_app. Qed.
Lemma marks_nosub : forall cs c us, Forall is_mark cs -> In c cs -> nosub [raw c_nl; raw c; raw c_space] (marks cs us).
Proof.
  induction cs as [|d cs IH]; intros c us F H; [contradiction|]. inversion F as [|? ? Fd Fc]; subst. cbn [marks fold_left]. destruct H as [->|H]; [|exact (IH c _ Fc H)].
  eapply more_nosub; [|apply (marks_more cs); exact Fc|]; [repeat constructor|]. intros a b E. revert E. apply markers_left. apply mark_ne; [exact Fd|discriminate|discriminate].
Qed.

(** A match of the pattern does not reach over a line feed. *)
Lemma umark_break : forall pat A pend v B, (forall q, In q (tl pat) -> snd q <> snd v) -> (forall q, In q pend -> In q (tl pat)) -> follows pend A = true ->
  umark pat pend (A ++ v :: B) = umark pat pend A ++ umark pat [] (v :: B).
Proof.
  intros pat A. induction A as [|u A IH]; intros pend v B H Hp Fo.
  - destruct pend as [|q pend]; [reflexivity|discriminate].
  - change ((u :: A) ++ v :: B) with (u :: A ++ v :: B). cbn [umark]. destruct pend as [|q pend].
    + assert (M : umatch pat (u :: A ++ v :: B) = umatch pat (u :: A)).
      { destruct pat as [|q qs]; [reflexivity|]. cbn [umatch]. rewrite follows_barrier; [reflexivity|]. intros X. cbn [tl] in H.
        assert (Y : exists q', In q' qs /\ snd q' = snd v) by (clear - X; induction qs as [|q' qs IH]; [contradiction|]; destruct X as [X|X]; [exists q'; split; [left; reflexivity|exact X]|destruct (IH X) as (q2 & Y1 & Y2); exists q2; split; [right; exact Y1|exact Y2]]).
        destruct Y as (q' & Y1 & Y2). exact (H q' Y1 Y2). }
      rewrite M. destruct (umatch pat (u :: A)) eqn:E.
      * destruct pat as [|q qs]; [discriminate|]. cbn [umatch] in E. apply andb_true_iff in E. destruct E as [_ E]. rewrite IH; [reflexivity|exact H|intros; assumption|exact E].
      * rewrite IH; [reflexivity|exact H|intros ? []|reflexivity].
    + cbn [follows] in Fo. apply andb_true_iff in Fo. destruct Fo as [_ Fo]. rewrite IH; [reflexivity|exact H|intros; apply Hp; right; assumption|exact Fo].
Qed.
Lemma markers_break : forall m A B, is_mark m -> markers m (A ++ raw c_nl :: B) = markers m A ++ markers m (raw c_nl :: B).
Proof.
  intros m A B Hm. unfold markers. apply umark_break; [|intros ? []|reflexivity]. intros q [<-|[<-|[]]]; cbn; [apply mark_ne; [exact Hm|discriminate|discriminate]|discriminate].
Qed.
Lemma markers_nl : forall m B, raw_at m B = false -> markers m (raw c_nl :: B) = raw c_nl :: markers m B.
Proof.
  intros m B H. unfold markers. cbn [umark]. replace (umatch [raw c_nl; escd m; raw c_space] (raw c_nl :: B)) with false; [reflexivity|]. cbn [umatch]. destruct B as [|[e d] B]; [reflexivity|]. cbn in H.
  cbn [follows fst snd escd]. destruct e; [reflexivity|]. cbn [negb andb] in *. replace (char_eqb m d) with false; [reflexivity|]. symmetry. apply N.eqb_neq. intros ->. unfold char_eqb in H. rewrite N.eqb_refl in H. discriminate.
Qed.
Lemma markers_step : forall m u us, snd u <> c_nl -> markers m (u :: us) = u :: markers m us.
Proof.
  intros m u us H. unfold markers. cbn [umark umatch snd raw]. replace (char_eqb c_nl (snd u)) with false; [reflexivity|]. symmetry. apply N.eqb_neq. intros X. apply H. symmetry. exact X.
Qed.
Lemma markers_indent : forall m L x T, x <> c_nl -> markers m (indent L ++ raw x :: raw c_space :: T) = indent L ++ raw x :: raw c_space :: markers m T.
Proof.
  intros m L x T H. unfold indent. induction L as [|L IH]; cbn [repeat app]; [rewrite !markers_step by (exact H || discriminate); reflexivity|]. rewrite markers_step by discriminate. rewrite IH. reflexivity.
Qed.

(** ** What [Display] writes *)

Lemma u_item_eq : forall outer ty L t nested, u_item outer ty L (YItem t nested) =
  indent L ++ raw (mchar ty) :: raw c_space :: marks (mchar ty :: outer) (u_pars t) ++ match nested with Some l' => raw c_nl :: u_list (mchar ty :: outer) l' | None => [] end.
Proof. reflexivity. Qed.
Lemma ujoin1_cons : forall a b l, ujoin1 (a :: b :: l) = a ++ raw c_nl :: ujoin1 (b :: l).
Proof. reflexivity. Qed.

(** An indented list starts with a space. *)
Lemma u_item_space : forall outer ty L it c, c <> c_space -> raw_at c (u_item outer ty (S L) it) = false /\ u_item outer ty (S L) it <> [].
Proof. intros outer ty L [t nested] c H. rewrite u_item_eq. split; [|discriminate]. cbn [indent repeat app raw_at]. apply N.eqb_neq. intros X. apply H. symmetry. exact X. Qed.
Lemma u_items_space : forall outer ty L its c, c <> c_space -> raw_at c (ujoin1 (map (u_item outer ty (S L)) its)) = false.
Proof.
  intros outer ty L [|it its] c H; [reflexivity|]. cbn [map ujoin1]. destruct (u_item_space outer ty L it c H) as [X Y]. rewrite raw_app by exact Y. exact X.
Qed.
Lemma u_list_space : forall coll L o outer l c, tame_list coll (S L) o l -> c <> c_space -> raw_at c (u_list outer l) = false.
Proof. intros coll L o outer l c T H. inversion T; subst. rewrite u_list_eq. apply u_items_space. exact H. Qed.

Lemma markers_list : forall coll c, is_mark c -> forall l L o outer, tame_list coll (S L) o l -> markers c (u_list outer l) = u_list (outer ++ [c]) l.
Proof.
  intros coll c Hc. assert (Cs : c <> c_space) by (apply mark_ne; [exact Hc|discriminate|discriminate]). fix IH 1. intros [ty lv items] L o outer T. inversion T as [? ? ? ? NE F]; subst. rewrite !u_list_eq. clear T NE.
  assert (E : forall it, In it items -> markers c (u_item outer ty (S L) it) = u_item (outer ++ [c]) ty (S L) it).
  { revert F. induction items as [|it items IHi]; intros F it' Hit; [contradiction|]. inversion F as [|? ? Fi Fl]; subst. destruct Hit as [<-|Hit]; [|exact (IHi Fl it' Hit)]. clear IHi Fl F.
    destruct it as [t nested]. rewrite !u_item_eq. rewrite markers_indent by (apply mark_ne; [apply mchar_mark|discriminate|discriminate]). do 3 apply f_equal. inversion Fi as [? ? ? ? ? _ Fn]; subst.
    change (mchar ty :: outer ++ [c]) with ((mchar ty :: outer) ++ [c]). rewrite marks_snoc. destruct nested as [l'|]; [|rewrite !app_nil_r; reflexivity].
    specialize (Fn l' eq_refl). rewrite markers_break by exact Hc. rewrite markers_nl by (eapply u_list_space; [exact Fn|exact Cs]). rewrite (IH l' (S L) _ (mchar ty :: outer) Fn). reflexivity. }
  clear IH F. induction items as [|it items IHi]; [reflexivity|]. destruct items as [|it2 items].
  - cbn [map ujoin1]. rewrite !app_nil_r. apply E. left. reflexivity.
  - change (map (u_item outer ty (S L)) (it :: it2 :: items)) with (u_item outer ty (S L) it :: u_item outer ty (S L) it2 :: map (u_item outer ty (S L)) items). rewrite ujoin1_cons, markers_break by exact Hc.
    rewrite E by (left; reflexivity). rewrite markers_nl by exact (u_items_space outer ty L (it2 :: items) c Cs).
    change (u_item outer ty (S L) it2 :: map (u_item outer ty (S L)) items) with (map (u_item outer ty (S L)) (it2 :: items)). rewrite IHi by (intros; apply E; right; assumption). reflexivity.
Qed.

Lemma repeat_render : forall c n, render (repeat (raw c) n) = repeat_char c n.
Proof. intros c n. induction n as [|n IH]; [reflexivity|]. cbn. rewrite IH. reflexivity. Qed.
Lemma u_list_render : forall coll l L o, tame_list coll L o l -> display_list l = render (u_list [] l).
Proof.
  intros coll. fix IH 1. intros [ty lv items] L o T. inversion T as [? ? ? ? NE F]; subst; rename lv into L. rewrite u_list_eq. cbn [display_list]. clear T NE.
  assert (E : forall it, In it items -> (repeat_char c_space L ++ display_list_type ty ++ s_ " " ++ replace (nl ++ display_list_type ty ++ s_ " ") (nl ++ [c_bslash] ++ display_list_type ty ++ s_ " ") (display_item it))%list = render (u_item [] ty L it)).
  { revert F. induction items as [|it items IHi]; intros F it' Hit; [contradiction|]. inversion F as [|? ? Fi Fl]; subst. destruct Hit as [<-|Hit]; [|exact (IHi Fl it' Hit)]. clear IHi Fl F.
    destruct it as [t nested]. rewrite u_item_eq, render_app. unfold indent. rewrite repeat_render. apply f_equal. inversion Fi as [? ? ? ? ? [(Tt & _) _] Fn]; subst.
    change (raw (mchar ty) :: raw c_space :: ?x) with ([raw (mchar ty); raw c_space] ++ x). rewrite render_app. replace (display_list_type ty) with [mchar ty] by (destruct ty; reflexivity).
    change ([mchar ty] ++ s_ " " ++ ?x) with ((render [raw (mchar ty); raw c_space]) ++ x). apply f_equal. cbn [display_item].
    assert (D : match nested with Some l => (flat_map display_par_node t ++ nl ++ display_list l)%list | None => flat_map display_par_node t end
                = render (u_pars t ++ match nested with Some l => raw c_nl :: u_list [] l | None => [] end)).
    { change (flat_map display_par_node t) with (display_paragraph t). rewrite (u_pars_render _ _ Tt). destruct nested as [l'|]; [|rewrite app_nil_r; reflexivity].
      rewrite (IH l' (S L) _ (Fn l' eq_refl)), render_app. reflexivity. }
    etransitivity; [apply f_equal; exact D|]. rewrite markers_render by (destruct ty; discriminate). apply f_equal. change (marks [mchar ty] (u_pars t)) with (markers (mchar ty) (u_pars t)).
    destruct nested as [l'|]; [|rewrite !app_nil_r; reflexivity]. rewrite markers_break by apply mchar_mark.
    rewrite markers_nl by (eapply u_list_space; [exact (Fn l' eq_refl)|destruct ty; discriminate]). rewrite (markers_list coll _ (mchar_mark ty) l' L _ [] (Fn l' eq_refl)). reflexivity. }
  clear IH F. induction items as [|it items IHi]; [reflexivity|]. destruct items as [|it2 items].
  - cbn [map join ujoin1]. rewrite app_nil_r. apply E. left. reflexivity.
  - set (f := fun it0 => _) in IHi |- *. change (join nl (map f (it :: it2 :: items))) with ((f it ++ nl ++ join nl (map f (it2 :: items)))%list). rewrite IHi by (intros; apply E; right; assumption).
    unfold f at 1. rewrite E by (left; reflexivity). change (map (u_item [] ty L) (it :: it2 :: items)) with (u_item [] ty L it :: u_item [] ty L it2 :: map (u_item [] ty L) items). rewrite ujoin1_cons, render_app. reflexivity.
Qed.

(** ** Tame lists *)

Lemma nodelim_item : forall j c, is_mark c -> nodelim (raw c_nl :: indent j ++ [raw c; raw c_space]).
Proof.
  intros j c Hc. constructor; [nodel|]. apply Forall_app. split; [|constructor; [exact (mark_free _ Hc)|constructor; [nodel|constructor]]].
  unfold indent. induction j as [|j IH]; constructor; [nodel|exact IH].
Qed.
Lemma chars_repeat : forall c n, chars (repeat (raw c) n) = repeat c n.
Proof. intros c n. induction n as [|n IH]; [reflexivity|]. cbn. rewrite IH. reflexivity. Qed.
Lemma unescaped_item : forall j c, Forall (fun u : uchar => fst u = false) (raw c_nl :: indent j ++ [raw c; raw c_space]).
Proof. intros j c. constructor; [reflexivity|]. apply Forall_app. split; [|repeat constructor]. unfold indent. induction j; constructor; auto. Qed.
Lemma uboundary_true : forall j ko us, uboundary j ko us = true -> exists c r, us = indent j ++ raw c :: raw c_space :: r /\ raw_at c_space r = false /\ is_mark c /\ (forall ty, ko = Some (lk ty) -> c = mchar ty).
Proof.
  intros j ko us H. unfold uboundary in H. apply andb_true_iff in H. destruct H as [H H3]. apply andb_true_iff in H. destruct H as [H1 H2]. apply Nat.eqb_eq in H3.
  assert (E : us = indent j ++ skipn j us).
  { destruct j as [|j]; [reflexivity|]. cbn [Nat.eqb orb] in H1. apply Nat.eqb_eq in H1. destruct (lead_split c_space us) as [E _]. rewrite H1 in E. exact E. }
  rewrite <- (skipn_skipn1 us j) in H3. set (W := skipn j us) in *.
  assert (X : exists c, lead c W = 1 /\ is_mark c /\ (forall ty, ko = Some (lk ty) -> c = mchar ty)).
  { unfold umarker in H2. destruct ko as [[]|].
    - apply Nat.eqb_eq in H2. exists c_minus. split; [exact H2|]. split; [left; reflexivity|]. intros [] Q; [reflexivity|discriminate].
    - apply Nat.eqb_eq in H2. exists c_plus. split; [exact H2|]. split; [right; reflexivity|]. intros [] Q; [discriminate|reflexivity].
    - apply orb_true_iff in H2. destruct H2 as [H2|H2]; apply Nat.eqb_eq in H2; [exists c_minus|exists c_plus]; (split; [exact H2|]); (split; [unfold is_mark; auto|]); intros ty Q; discriminate. }
  destruct X as (c & L & Hc & Hk). destruct (lead_ge1 c W ltac:(lia)) as (w & Ew & _). rewrite Ew in H3. cbn [skipn] in H3. destruct (lead_ge1 c_space w ltac:(lia)) as (r & -> & Lr).
  exists c, r. split; [rewrite E, Ew; reflexivity|]. split; [|auto]. apply lead_0. lia.
Qed.
(** No space is escaped in a part of a paragraph, and texts escape line feeds in pairs. *)
Lemma part_facts : forall p q, In q (uparts (u_par p)) -> In (chars q) (strings p) /\ ~ In (escd c_space) q /\ (is_ptext p = true -> forall a b, q = a ++ raw c_nl :: b -> Nat.Even (leading c_nl (rev (chars a)))).
Proof.
  intros p q H. split; [rewrite <- u_par_parts; apply in_map; exact H|].
  destruct p as [t u|l|x|x|x|x|x]; cbn [u_par uparts is_ptext] in *;
    try (destruct H as [<-|[]]; split; [unfold u_delim, nn; first [nochar|noesc]|first [discriminate|intros _; apply u_text_nl]]).
  - destruct H as [<-|[<-|[]]]; (split; [unfold u_title, u_dest, nn; noesc|discriminate]).
  - split; [|discriminate]. apply in_flat_map in H. destruct H as (v & H1 & H2). apply in_map_iff in H1. destruct H1 as (b & <- & _). destruct b as [x|x|x]; cbn [u_bold vparts] in H2; destruct H2 as [<-|[]]; unfold u_btext, stars, u_delim, nn; noesc.
Qed.
Lemma item_text_ok : forall coll n L outer ty t, tame_item_text coll L outer ty t -> Forall is_mark outer -> (n <> 0 -> coll = true) ->
  text_ok n L (lk ty) (marks (mchar ty :: outer) (u_pars t)) t.
Proof.
  intros coll n L outer ty t (T & Hs & He & Hb) Ho Hn. assert (F : Forall is_mark (mchar ty :: outer)) by (constructor; [apply mchar_mark|exact Ho]). pose proof (marks_more _ (u_pars t) F) as M.
  destruct (more_us is_mark mark_free (map u_par t) _ M) as (l & E1 & E2 & _ & E4). rewrite u_pars_erase in E2. exists l. split; [symmetry; exact E1|]. split; [apply E4; exact (u_pars_good _ _ T)|]. split; [exact E2|].
  split; [exact (trim_ok_last _ _ E2 He)|]. split; [intros X; apply He; exact (u_pars_ends _ _ (proj1 T) (more_ends _ _ _ _ M X))|]. split; [apply (more_raw_at _ _ _ _ M); apply (first_raw coll); [exact T|nodel|exact Hs]|].
  split; [exact (more_tame _ _ _ _ _ M (u_pars_tame coll n false t T Hn))|].
  intros A1 A2 E (a & ->) j Hj. destruct (uboundary j (if j =? L then Some (lk ty) else None) A2) eqn:B; [|reflexivity]. exfalso. destruct (uboundary_true _ _ _ B) as (c & r & -> & Hr & Hc & Hk).
  assert (K : j = L -> c = mchar ty) by (intros ->; rewrite Nat.eqb_refl in Hk; exact (Hk ty eq_refl)).
  rewrite <- app_assoc in E. cbn [app] in E.
  assert (K0 : j = 0 -> ~ In c (mchar ty :: outer)) by (intros -> Hin; exact (marks_nosub _ c (u_pars t) F Hin a r E)).
  (* the line before the markers were escaped *)
  rewrite E in M. destruct (more_at _ _ _ _ _ M) as (a' & b' & Eu & _ & M'). unfold more in M'. apply Forall2_app_inv_r in M'. destruct M' as (i' & r' & Mi & Mr & ->).
  assert (Ei : i' = indent j).
  { clear - Mi. unfold indent in *. revert i' Mi. induction j as [|j IH]; intros i' Mi; inversion Mi as [|u v ? ? U R]; subst; [reflexivity|]. cbn [repeat]. f_equal; [|exact (IH _ R)].
    destruct u as [e d]. destruct U as (U1 & U2 & _). cbn in U1, U2. destruct e; [discriminate (U2 eq_refl)|]. subst d. reflexivity. }
  subst i'. destruct (more_at is_mark r' [] c _ Mr) as (z & r1 & -> & Mz & Mr1). inversion Mz; subst z. destruct (more_at is_mark r1 [] c_space _ Mr1) as (z & r2 & -> & Mz' & Mr2). inversion Mz'; subst z. cbn [app] in Eu.
  assert (Hr2 : raw_at c_space r2 = false).
  { destruct (raw_at c_space r2) eqn:R; [|reflexivity]. apply raw_at_true in R. destruct R as (w & ->). inversion Mr2 as [|? v ? ? U _]; subst. destruct v as [e d]. destruct U as (U1 & _ & U3). cbn in U1, U3. subst d.
    destruct e; [|discriminate Hr]. destruct (U3 eq_refl) as [X|[X|X]]; discriminate X. }
  (* it lies in one part *)
  assert (Eu' : u_pars t = a' ++ (raw c_nl :: indent j ++ [raw c; raw c_space]) ++ r2) by (rewrite Eu; cbn [app]; rewrite <- app_assoc; reflexivity).
  destruct (ugoods_within (raw c_nl :: indent j ++ [raw c; raw c_space]) (map u_par t) ltac:(discriminate) (nodelim_item j c Hc) (u_pars_good _ _ T) _ _ Eu') as (q & qa & qb & qc & Hq & Eq & Eb).
  apply in_flat_map in Hq. destruct Hq as (x & Hx & Hq). apply in_map_iff in Hx. destruct Hx as (p & <- & Hp). destruct (part_facts p q Hq) as (Q1 & Q2 & Q3).
  apply (Hb p (chars q) j c Hp Q1 Hj Hc K K0). exists (chars qa), (chars qb). split; [|split].
  - rewrite Eq, !chars_app. cbn [chars raw snd app]. rewrite chars_app. unfold indent. rewrite chars_repeat. cbn [chars raw snd]. rewrite <- app_assoc. reflexivity.
  - intros (w & Ew). destruct qb as [|[e d] qb]; [discriminate Ew|]. cbn [chars snd] in Ew. injection Ew as -> _. destruct e.
    + apply Q2. rewrite Eq, !in_app_iff. right. right. left. reflexivity.
    + rewrite Eb in Hr2. discriminate Hr2.
  - intros Tp. apply (Q3 Tp qa ((indent j ++ [raw c; raw c_space]) ++ qb)). exact Eq.
Qed.
Lemma tame_list_ok : forall coll n l L outer, tame_list coll L outer l -> Forall is_mark outer -> (n <> 0 -> coll = true) -> list_ok n L outer l.
Proof.
  intros coll n. fix IH 1. intros [ty lv items] L outer T Ho Hn. inversion T as [? ? ? ? NE F]; subst; rename lv into L. constructor; [exact NE|]. clear T NE.
  induction items as [|it items IHi]; [constructor|]. inversion F as [|? ? Fi Fl]; subst. constructor; [|exact (IHi Fl)]. clear IHi Fl F.
  destruct it as [t nested]. inversion Fi as [? ? ? ? ? Tt Fn]; subst. constructor; [exact (item_text_ok coll n L outer ty t Tt Ho Hn)|].
  destruct nested as [l'|]; [|discriminate]. intros l E. injection E as <-. apply (IH l'); [exact (Fn l' eq_refl)|constructor; [apply mchar_mark|exact Ho]|exact Hn].
Qed.
Lemma u_list_fine : forall coll l L outer, tame_list coll L outer l -> Forall is_mark outer -> fine (u_list outer l).
Proof.
  intros coll. fix IH 1. intros [ty lv items] L outer T Ho. inversion T as [? ? ? ? NE F]; subst; rename lv into L. rewrite u_list_eq. clear T NE.
  assert (Ho' : Forall is_mark (mchar ty :: outer)) by (constructor; [apply mchar_mark|exact Ho]).
  induction items as [|it items IHi]; [apply fine_lit; reflexivity|]. inversion F as [|? ? Fi Fl]; subst. specialize (IHi Fl). clear Fl F. cbn [map ujoin1]. apply fine_app. split.
  - destruct it as [t nested]. inversion Fi as [? ? ? ? ? [(Tt & _) _] Fn]; subst. rewrite u_item_eq. apply fine_app. split; [apply fine_repeat; reflexivity|].
    change (raw (mchar ty) :: raw c_space :: ?x) with ([raw (mchar ty); raw c_space] ++ x). apply fine_app. split; [apply fine_lit; destruct ty; reflexivity|]. apply fine_app.
    split; [exact (more_fine _ _ _ (marks_more _ (u_pars t) Ho') (u_pars_fine _ _ Tt))|]. destruct nested as [l'|]; [|apply fine_lit; reflexivity]. change (raw c_nl :: ?x) with ([raw c_nl] ++ x).
    apply fine_app. split; [apply fine_lit; reflexivity|]. exact (IH l' (S L) (mchar ty :: outer) (Fn l' eq_refl) Ho').
  - destruct (map (u_item outer ty L) items) as [|x r]; [apply fine_lit; reflexivity|]. change (fine ([raw c_nl] ++ ujoin1 (x :: r))). apply fine_app. split; [apply fine_lit; reflexivity|exact IHi].
Qed.
Lemma list_block : forall coll n l, tame_list coll 0 [] l -> (n <> 0 -> coll = true) -> good_block n (u_list [] l) (YListNode l).
Proof.
  intros coll n l T Hn. split; [|split; [|exact (u_list_fine coll l 0 [] T (Forall_nil _))]].
  - inversion T as [? ? ty items NE F]; subst. rewrite u_list_eq. destruct items as [|[t nested] items]; [congruence|]. cbn [map ujoin1]. rewrite u_item_eq. cbn [indent repeat app]. apply starts_raw; destruct ty; discriminate.
  - apply list_parses. exact (tame_list_ok coll n l 0 [] T (Forall_nil _) Hn).
Qed.
