(** Reading is local: what follows a blank line does not change what is before it. *)
From Coq Require Import String.
From Verif Require Import Base Lexer LexSpec LexProofs LexFacts Ops Parser FParser Refine Refine2 Refine3 Wf TokFacts
  StreamSpec StreamProofs ShapeSpec Shapes Ast ToYamd Api TreeAst LocalSpec.
Open Scope list_scope.

(** ** Tokens after a terminator *)

Section Ext.
  Variable Z : list token.
  Hypothesis HZ : Z = [] \/ nth_is 0 is_terminator Z = true.

  Definition add {A} (o : option (A * list token)) : option (A * list token) :=
    match o with Some (x, r) => Some (x, r ++ Z) | None => None end.
  Definition keeps (st : list stop_condition) : Prop := In StopTerminator st.

  Lemma nth_add : forall f i ts, (forall t, is_terminator t = true -> f t = false) -> i <= length ts ->
    nth_is i f (ts ++ Z) = nth_is i f ts.
  Proof.
    intros f i ts F. revert ts. induction i as [|i IH]; intros [|t r] L; cbn in L.
    - cbn. destruct Z as [|z Z']; [reflexivity|]. destruct HZ as [E|E]; [discriminate|]. cbn in *. apply F. exact E.
    - reflexivity.
    - lia.
    - apply (IH r). lia.
  Qed.
  Lemma nth_short : forall f i ts, length ts <= i -> nth_is i f ts = false.
  Proof. intros f i ts L. unfold nth_is. apply nth_error_None in L. rewrite L. reflexivity. Qed.

  Lemma not_space : forall t, is_terminator t = true -> is_space_1 t = false.
  Proof. intros t H. unfold is_terminator, is_space_1 in *. apply kind_eqb_eq in H. rewrite H. reflexivity. Qed.
  Lemma not_eol : forall t, is_terminator t = true -> is_eol t = false.
  Proof. intros t H. unfold is_terminator, is_eol in *. apply kind_eqb_eq in H. rewrite H. reflexivity. Qed.
  Lemma not_indent : forall l t, is_terminator t = true -> is_indent l t = false.
  Proof. intros l t H. unfold is_terminator, is_indent in *. apply kind_eqb_eq in H. rewrite H. reflexivity. Qed.
  Lemma not_marker : forall k t, is_terminator t = true -> is_list_marker k t = false.
  Proof. intros k t H. unfold is_terminator, is_list_marker, list_kind_of in *. apply kind_eqb_eq in H. rewrite H. reflexivity. Qed.
  Lemma not_coll_end : forall t, is_terminator t = true -> is_collapsible_end t = false.
  Proof. intros t H. unfold is_terminator, is_collapsible_end in *. apply kind_eqb_eq in H. rewrite H. reflexivity. Qed.
  Lemma not_bracket : forall t, is_terminator t = true -> is_left_bracket t = false.
  Proof. intros t H. unfold is_terminator, is_left_bracket in *. apply kind_eqb_eq in H. rewrite H. reflexivity. Qed.
  Lemma not_paren : forall t, is_terminator t = true -> is_left_paren t = false.
  Proof. intros t H. unfold is_terminator, is_left_paren in *. apply kind_eqb_eq in H. rewrite H. reflexivity. Qed.
  Local Hint Resolve not_space not_eol not_indent not_marker not_coll_end not_bracket not_paren : core.

  Lemma boundary_add : forall l k t r, boundary_at l k ((t :: r) ++ Z) = boundary_at l k (t :: r).
  Proof.
    intros l k t r. unfold boundary_at. destruct (l =? 0).
    - rewrite (nth_add is_space_1 1) by (auto; cbn; lia). reflexivity.
    - rewrite (nth_add (is_list_marker k) 1) by (auto; cbn; lia).
      destruct r as [|u r].
      + rewrite (nth_short (is_list_marker k) 1 [t]) by (cbn; lia). cbn. rewrite !andb_false_r. reflexivity.
      + rewrite (nth_add is_space_1 2) by (auto; cbn; lia). reflexivity.
  Qed.
  Lemma matches_add : forall c t r, fmatches c ((t :: r) ++ Z) = fmatches c (t :: r).
  Proof.
    intros [| | |cur k] t r; try reflexivity.
    - cbn [fmatches]. rewrite (nth_add is_collapsible_end 1) by (auto; cbn; lia). reflexivity.
    - cbn [fmatches]. change (nth_is 0 col0 ((t :: r) ++ Z)) with (nth_is 0 col0 (t :: r)). f_equal.
      induction (seq 0 (S (cur + 1))) as [|l ls IH]; [reflexivity|]. cbn [existsb]. rewrite boundary_add, IH. reflexivity.
  Qed.
  Lemma stopped_cons : forall st t r, stopped st ((t :: r) ++ Z) = stopped st (t :: r).
  Proof.
    intros st t r. unfold stopped. cbn [app]. induction st as [|c st IH]; [reflexivity|]. cbn [existsb]. rewrite IH.
    change (t :: r ++ Z) with ((t :: r) ++ Z). rewrite matches_add. reflexivity.
  Qed.
  Lemma stopped_Z : forall st, keeps st -> stopped st Z = true.
  Proof.
    intros st K. destruct HZ as [->|E]; [reflexivity|]. destruct Z as [|z Z']; [reflexivity|]. unfold stopped.
    apply existsb_exists. exists StopTerminator. split; assumption.
  Qed.
  Lemma stopped_add : forall st ts, keeps st -> stopped st (ts ++ Z) = stopped st ts.
  Proof. intros st [|t r] K; [apply stopped_Z; exact K|apply stopped_cons]. Qed.

  (** *** Scanning *)

  Lemma until_add : forall st m ts, keeps st -> until st m (ts ++ Z) = add (until st m ts).
  Proof.
    intros st m ts K. induction ts as [|t r IH].
    - cbn [app]. pose proof (stopped_Z st K) as E. destruct Z as [|z Z']; [reflexivity|]. cbn [until]. rewrite E. reflexivity.
    - cbn [app until]. change (t :: r ++ Z) with ((t :: r) ++ Z). rewrite stopped_cons. destruct (stopped st (t :: r)); [reflexivity|].
      destruct (m t); [reflexivity|]. rewrite IH. destruct (until st m r) as [[[b c] rest]|]; reflexivity.
  Qed.
  Lemma until_more : forall st m ts b c rest, until st m ts = Some (b, c, rest) -> until st m (ts ++ Z) = Some (b, c, rest ++ Z).
  Proof.
    intros st m ts. induction ts as [|t r IH]; intros b c rest H; [discriminate|]. cbn [app until] in *.
    change (t :: r ++ Z) with ((t :: r) ++ Z). rewrite stopped_cons. destruct (stopped st (t :: r)); [discriminate|].
    destruct (m t); [injection H as <- <- <-; reflexivity|]. destruct (until st m r) as [[[b' c'] rest']|]; [|discriminate].
    injection H as <- <- <-. rewrite (IH _ _ _ eq_refl). reflexivity.
  Qed.
  Lemma dest_add : forall st ts n, keeps st -> dest_scan st n (ts ++ Z) = add (dest_scan st n ts).
  Proof.
    intros st ts n K. revert n. induction ts as [|t r IH]; intros n.
    - cbn [app]. pose proof (stopped_Z st K) as E. destruct Z as [|z Z']; [reflexivity|]. cbn [dest_scan]. rewrite E. reflexivity.
    - cbn [app dest_scan]. change (t :: r ++ Z) with ((t :: r) ++ Z). rewrite stopped_cons. destruct (stopped st (t :: r)); [reflexivity|].
      rewrite !IH. destruct (kind t); try (match goal with |- context [dest_scan st ?m r] => destruct (dest_scan st m r) as [[[b c] rest]|]; reflexivity end).
      destruct (n - 1 =? 0); [reflexivity|]. destruct (dest_scan st (n - 1) r) as [[[b c] rest]|]; reflexivity.
  Qed.

  (** *** Inline nodes *)

  Definition local (g : fparser) : Prop := forall st ts, keeps st -> g st (ts ++ Z) = add (g st ts).

  Lemma local_orelse : forall f g, local f -> local g -> local (forelse f g).
  Proof.
    intros f g F G st ts K. unfold forelse. rewrite (F st ts K), (G st ts K). destruct (f st ts) as [[x r]|]; reflexivity.
  Qed.
  Lemma local_delim : forall n f g, (forall t, is_terminator t = true -> f t = false) -> local (fdelim n f g).
  Proof.
    intros n f g F st [|t r] K.
    - cbn [app fdelim add]. destruct HZ as [->|E]; [reflexivity|]. destruct Z as [|z Z']; [reflexivity|]. cbn in E.
      cbn. rewrite (F z E). reflexivity.
    - cbn [app fdelim]. destruct (f t); [|reflexivity]. rewrite (until_add st g r K). destruct (until st g r) as [[[b c] rest]|]; reflexivity.
  Qed.
  Ltac no_term := let t := fresh in let H := fresh in intros t H; unfold is_terminator in H; apply kind_eqb_eq in H;
    match goal with |- ?f t = _ => unfold f end; rewrite H; reflexivity.
  Lemma local_title : local ftitle. Proof. apply local_delim. no_term. Qed.
  Lemma local_italic : local fitalic. Proof. apply local_delim. no_term. Qed.
  Lemma local_strike : local fstrike. Proof. apply local_delim. no_term. Qed.
  Lemma local_emphasis : local femphasis. Proof. apply local_delim. no_term. Qed.
  Lemma local_code_span : local fcode_span. Proof. apply local_delim. no_term. Qed.
  Lemma head_add : forall (P : token -> bool), (forall t, is_terminator t = true -> P t = false) ->
    match Z with z :: _ => P z = false | [] => True end.
  Proof. intros P F. destruct Z as [|z Z']; [exact I|]. destruct HZ as [H|H]; [discriminate|]. apply F. exact H. Qed.
  Lemma local_dest : local fdest.
  Proof.
    intros st [|t r] K.
    - cbn [app fdest add]. pose proof (head_add is_left_paren not_paren) as E. destruct Z as [|z Z']; [reflexivity|]. cbn [fdest]. rewrite E. reflexivity.
    - cbn [app fdest]. destruct (is_left_paren t); [|reflexivity]. rewrite (dest_add st r 1 K). destruct (dest_scan st 1 r) as [[[b c] rest]|]; reflexivity.
  Qed.
  Lemma local_anchor : local fanchor.
  Proof.
    intros st ts K. unfold fanchor. rewrite (local_title st ts K). destruct (ftitle st ts) as [[t1 r1]|]; [|reflexivity]. cbn [add].
    rewrite (local_dest st r1 K). destruct (fdest st r1) as [[t2 r2]|]; reflexivity.
  Qed.
  Lemma bold_add : forall n m st acc ts, keeps st -> length ts < n -> length ts < m ->
    fbold_loop m st acc (ts ++ Z) = add (fbold_loop n st acc ts).
  Proof.
    induction n as [|n IH]; intros m st acc ts K Hn Hm; [lia|]. destruct m as [|m]; [lia|]. destruct ts as [|t r].
    - cbn [app fbold_loop add]. pose proof (stopped_Z st K) as E. destruct Z as [|z Z']; [reflexivity|]. rewrite E. reflexivity.
    - cbn [app fbold_loop]. change (t :: r ++ Z) with ((t :: r) ++ Z). rewrite stopped_cons. destruct (stopped st (t :: r)); [reflexivity|].
      destruct (is_star2 t); [reflexivity|]. rewrite (local_orelse _ _ local_strike local_italic st (t :: r) K).
      destruct (forelse fstrike fitalic st (t :: r)) as [[x rest]|] eqn:E; cbn [add].
      + apply (covers_orelse _ _ (covers_delim _ _ _) (covers_delim _ _ _)) in E. destruct E as [E L].
        assert (LL : length (t :: r) = length (yield x) + length rest) by (rewrite E; apply app_length).
        rewrite (IH m st [] rest K) by lia. destruct (fbold_loop n st [] rest) as [[[k c] rest']|]; reflexivity.
      + apply IH; [exact K|cbn in *; lia|cbn in *; lia].
  Qed.
  Lemma not_star2 : forall t, is_terminator t = true -> is_star2 t = false. Proof. no_term. Qed.
  Lemma local_bold : local fbold.
  Proof.
    intros st [|t r] K.
    - cbn [app fbold add]. pose proof (head_add is_star2 not_star2) as E. destruct Z as [|z Z']; [reflexivity|]. cbn [fbold]. rewrite E. reflexivity.
    - cbn [app fbold]. destruct (is_star2 t); [|reflexivity]. rewrite (bold_add (S (length r)) _ st [] r K) by (rewrite ?app_length; lia).
      destruct (fbold_loop (S (length r)) st [] r) as [[[k c] rest]|]; reflexivity.
  Qed.
  Lemma local_inline : local finline.
  Proof.
    unfold finline. repeat apply local_orelse; auto using local_strike, local_italic, local_bold, local_anchor, local_code_span, local_emphasis.
  Qed.
  Lemma items_add : forall g, local g -> covers g -> forall n m st acc ts, keeps st -> length ts < n -> length ts < m ->
    fitems g m st acc (ts ++ Z) = (fst (fitems g n st acc ts), snd (fitems g n st acc ts) ++ Z).
  Proof.
    intros g G C. induction n as [|n IH]; intros m st acc ts K Hn Hm; [lia|]. destruct m as [|m]; [lia|]. cbn [fitems].
    rewrite (stopped_add st ts K). destruct (stopped st ts) eqn:S0; [reflexivity|]. rewrite (G st ts K).
    destruct (g st ts) as [[x rest]|] eqn:E; cbn [add].
    - apply C in E. destruct E as [E L].
      assert (LL : length ts = length (yield x) + length rest) by (rewrite E; apply app_length).
      rewrite (IH m st [] rest K) by lia. destruct (fitems g n st [] rest) as [k r']. reflexivity.
    - destruct ts as [|t r]; [discriminate S0|]. cbn [app]. apply IH; [exact K|cbn in *; lia|cbn in *; lia].
  Qed.
  Lemma paragraph_add : forall st ts, keeps st -> fparagraph st (ts ++ Z) = (fst (fparagraph st ts), snd (fparagraph st ts) ++ Z).
  Proof.
    intros st ts K. unfold fparagraph. rewrite (items_add finline local_inline covers_inline (S (length ts)) _ st [] ts K) by (rewrite ?app_length; lia).
    destruct (fitems finline (S (length ts)) st [] ts) as [k r]. reflexivity.
  Qed.

  (** *** Simple blocks *)

  Lemma not_hash : forall t, is_terminator t = true -> is_hash t = false.
  Proof. intros t H. unfold is_terminator, is_hash in *. apply kind_eqb_eq in H. rewrite H. reflexivity. Qed.
  Lemma not_bang : forall t, is_terminator t = true -> is_bang t = false. Proof. no_term. Qed.
  Lemma not_dash5 : forall t, is_terminator t = true -> is_dash5 t = false. Proof. no_term. Qed.
  Lemma local_heading : local fheading.
  Proof.
    intros st ts K. destruct ts as [|t [|u r]].
    - cbn [app]. pose proof (head_add is_hash not_hash) as E. destruct Z as [|z [|y Z']]; [reflexivity|reflexivity|]. cbn [fheading]. rewrite E. reflexivity.
    - cbn [app]. pose proof (head_add is_space_1 not_space) as E. destruct Z as [|z Z']; [reflexivity|]. cbn [fheading]. rewrite E, andb_false_r. reflexivity.
    - cbn [app fheading]. destruct (is_hash t && is_space_1 u); [|reflexivity].
      rewrite (items_add fanchor local_anchor covers_anchor (S (length r)) _ st [] r K) by (rewrite ?app_length; lia).
      destruct (fitems fanchor (S (length r)) st [] r) as [k rest]. reflexivity.
  Qed.
  Lemma local_image : local fimage.
  Proof.
    intros st [|t r] K.
    - cbn [app fimage add]. pose proof (head_add is_bang not_bang) as E. destruct Z as [|z Z']; [reflexivity|]. cbn [fimage]. rewrite E. reflexivity.
    - cbn [app fimage]. destruct (is_bang t); [|reflexivity]. rewrite (local_title st r K). destruct (ftitle st r) as [[t1 r1]|]; [|reflexivity].
      cbn [add]. rewrite (local_dest st r1 K). destruct (fdest st r1) as [[t2 r2]|]; [|reflexivity]. cbn [add].
      destruct r2 as [|e r3].
      + cbn [app add]. pose proof (stopped_Z st K) as S0. pose proof (head_add is_eol not_eol) as E. destruct Z as [|z Z']; [reflexivity|].
        rewrite E, S0. reflexivity.
      + cbn [app]. destruct (is_eol e); [reflexivity|]. change (e :: r3 ++ Z) with ((e :: r3) ++ Z). rewrite stopped_cons.
        destruct (stopped st (e :: r3)); reflexivity.
  Qed.
  Lemma images_add : forall n m st ts, keeps st -> length ts < n -> length ts < m ->
    fimages_loop m st (ts ++ Z) = add (fimages_loop n st ts).
  Proof.
    induction n as [|n IH]; intros m st ts K Hn Hm; [lia|]. destruct m as [|m]; [lia|]. destruct ts as [|t r].
    - cbn [app fimages_loop add]. pose proof (stopped_Z st K) as S0. pose proof (head_add is_bang not_bang) as E. destruct Z as [|z Z']; [reflexivity|]. cbn [fimages_loop]. cbn [fimage]. rewrite E.
      rewrite S0. reflexivity.
    - cbn [app fimages_loop]. change (t :: r ++ Z) with ((t :: r) ++ Z). rewrite (local_image st (t :: r) K), stopped_cons.
      destruct (fimage st (t :: r)) as [[x rest]|] eqn:E; cbn [add].
      + apply covers_image in E. destruct E as [E L].
        assert (LL : length (t :: r) = length (yield x) + length rest) by (rewrite E; apply app_length).
        rewrite (IH m st rest K) by lia. destruct (fimages_loop n st rest) as [[k rest']|]; reflexivity.
      + destruct (stopped st (t :: r)); reflexivity.
  Qed.
  Lemma local_images : local fimages.
  Proof.
    intros st ts K. unfold fimages. rewrite (images_add (S (length ts)) _ st ts K) by (rewrite ?app_length; lia).
    destruct (fimages_loop (S (length ts)) st ts) as [[[|x [|y k]] rest]|]; reflexivity.
  Qed.
  Lemma local_break : local fbreak.
  Proof.
    intros st [|t r] K.
    - cbn [app fbreak add]. pose proof (head_add is_dash5 not_dash5) as E. destruct Z as [|z Z']; [reflexivity|]. cbn [fbreak]. rewrite E. reflexivity.
    - cbn [app fbreak]. destruct (is_dash5 t); reflexivity.
  Qed.
  Lemma seq_add : forall preds, Forall (fun f => forall t, is_terminator t = true -> f t = false) preds -> forall ts,
    fseq preds (ts ++ Z) = add (fseq preds ts).
  Proof.
    intros preds F. induction F as [|f fs Hf F IH]; intros ts; [reflexivity|]. destruct ts as [|t r].
    - cbn [app fseq add]. pose proof (head_add f Hf) as E. destruct Z as [|z Z']; [reflexivity|]. cbn [fseq]. rewrite E. reflexivity.
    - cbn [app fseq]. destruct (f t); [|reflexivity]. rewrite IH. destruct (fseq fs r) as [[a b]|]; reflexivity.
  Qed.
  Lemma markers_ok : forall l k, Forall (fun f => forall t, is_terminator t = true -> f t = false) (marker_preds l k).
  Proof. intros l k. unfold marker_preds. destruct (l =? 0); auto. Qed.

  Lemma item_lists_add : forall n,
    (forall m l k st ts, keeps st -> length ts < n -> length ts < m -> fitem m l k st (ts ++ Z) = add (fitem n l k st ts))
    /\ (forall m l st ts, keeps st -> S (length ts) < n -> S (length ts) < m -> flist m l st (ts ++ Z) = add (flist n l st ts))
    /\ (forall m l lk st ts, keeps st -> S (length ts) < n -> S (length ts) < m ->
          flist_items m l lk st (ts ++ Z) = (fst (flist_items n l lk st ts), snd (flist_items n l lk st ts) ++ Z)).
  Proof.
    induction n as [|n (II & IL & IS)]; [repeat split; intros; lia|]. split; [|split].
    - intros m l k st ts K Hn Hm. destruct m as [|m]; [lia|]. cbn [fitem].
      destruct ts as [|t r].
      + (* at the end *)
        cbn [app]. change (nth_is 0 col0 []) with false. cbn [negb add].
        destruct (negb (nth_is 0 col0 Z)); [reflexivity|]. destruct (nth_error Z (if l =? 0 then 0 else 1)) as [u|]; [|reflexivity].
        destruct (list_kind_of u); [|reflexivity]. change Z with ([] ++ Z) at 1. rewrite (seq_add _ (markers_ok l k) []).
        unfold marker_preds. destruct (l =? 0); reflexivity.
      + change (nth_is 0 col0 ((t :: r) ++ Z)) with (nth_is 0 col0 (t :: r)). destruct (negb (nth_is 0 col0 (t :: r))); [reflexivity|].
        rewrite (seq_add _ (markers_ok l k) (t :: r)).
        destruct (fseq (marker_preds l k) (t :: r)) as [[o r0]|] eqn:Q; cbn [add].
        2:{ destruct (nth_error ((t :: r) ++ Z) (if l =? 0 then 0 else 1)) as [u|]; destruct (nth_error (t :: r) (if l =? 0 then 0 else 1)) as [v|];
            try destruct (list_kind_of u); try destruct (list_kind_of v); reflexivity. }
        pose proof (fseq_app _ _ _ _ Q) as (E & Lo & _).
        assert (N : nth_error ((t :: r) ++ Z) (if l =? 0 then 0 else 1) = nth_error (t :: r) (if l =? 0 then 0 else 1)).
        { apply nth_error_app1. rewrite E, app_length. rewrite Lo. unfold marker_preds. destruct (l =? 0); cbn; lia. }
        rewrite N. destruct (nth_error (t :: r) (if l =? 0 then 0 else 1)) as [u|]; [|reflexivity]. destruct (list_kind_of u) as [mk|]; [|reflexivity].
        rewrite (paragraph_add (StopListBoundary l mk :: st) r0 (or_intror K)).
        destruct (fparagraph (StopListBoundary l mk :: st) r0) as [par r1] eqn:P. cbn [fst snd].
        apply fparagraph_app in P.
        assert (Lr : length (t :: r) = length o + length (yield par) + length r1) by (rewrite E, P, !app_length; lia).
        assert (Lo2 : 2 <= length o) by (rewrite Lo; unfold marker_preds; destruct (l =? 0); cbn; lia).
        rewrite (stopped_add st r1 K). destruct (negb (stopped st r1)); [|reflexivity].
        rewrite (IL m (l + 1) st r1 K) by lia. destruct (flist n (l + 1) st r1) as [[[k1 x] r2]|]; reflexivity.
    - intros m l st ts K Hn Hm. destruct m as [|m]; [lia|]. cbn [flist]. rewrite (II m l None st ts K) by lia.
      destruct (fitem n l None st ts) as [[[lk x] r]|] eqn:F; [|reflexivity]. cbn [add].
      destruct (lists_app n) as (LI & _ & _). apply LI in F; [|lia]. destruct F as [E L].
      assert (LL : length ts = length (yield x) + length r) by (rewrite E; apply app_length).
      rewrite (IS m l lk st r K) by lia. destruct (flist_items n l lk st r) as [k r1]. reflexivity.
    - intros m l lk st ts K Hn Hm. destruct m as [|m]; [lia|]. cbn [flist_items]. rewrite (II m l (Some lk) st ts K) by lia.
      destruct (fitem n l (Some lk) st ts) as [[[lk' x] r]|] eqn:F; [|reflexivity]. cbn [add].
      destruct (lists_app n) as (LI & _ & _). apply LI in F; [|lia]. destruct F as [E L].
      assert (LL : length ts = length (yield x) + length r) by (rewrite E; apply app_length).
      rewrite (IS m l lk st r K) by lia. destruct (flist_items n l lk st r) as [k r1]. reflexivity.
  Qed.
  Lemma local_list : local flist0.
  Proof.
    intros st ts K. unfold flist0. destruct (item_lists_add (2 * length ts + 3)) as (_ & H & _).
    rewrite (H (2 * length (ts ++ Z) + 3) 0 st ts K) by (rewrite ?app_length; lia).
    destruct (flist (2 * length ts + 3) 0 st ts) as [[[k x] r]|]; reflexivity.
  Qed.
  Lemma simple_add : forall st ts, fsimple st (ts ++ Z) = (fst (fsimple st ts), snd (fsimple st ts) ++ Z).
  Proof.
    intros st ts. unfold fsimple. assert (K : keeps (StopTerminator :: st)) by (left; reflexivity).
    rewrite (local_orelse _ _ local_list (local_orelse _ _ local_images (local_orelse _ _ local_break local_heading)) _ ts K).
    destruct (forelse flist0 (forelse fimages (forelse fbreak fheading)) (StopTerminator :: st) ts) as [[x r]|]; [reflexivity|].
    apply paragraph_add. exact K.
  Qed.

  (** *** Blocks over several lines *)

  Lemma nth_cons : forall f t r, nth_is 0 f ((t :: r) ++ Z) = nth_is 0 f (t :: r).
  Proof. reflexivity. Qed.
  Lemma col0_add : forall ts, nth_is 0 col0 ts = true -> nth_is 0 col0 (ts ++ Z) = true.
  Proof. intros [|t r] H; [discriminate|exact H]. Qed.
  Lemma until_none : forall st m ts, until st m ts = None -> existsb m ts = true -> until st m (ts ++ Z) = None.
  Proof.
    intros st m ts. induction ts as [|t r IH]; intros H E; [discriminate|]. cbn [app until] in *.
    change (t :: r ++ Z) with ((t :: r) ++ Z). rewrite stopped_cons. destruct (stopped st (t :: r)); [reflexivity|].
    cbn [existsb] in E. destruct (m t); [discriminate|]. destruct (until st m r) as [[[b c] rest]|]; [discriminate|]. rewrite (IH eq_refl E). reflexivity.
  Qed.
  Lemma modifier_more : forall st ts x r, fmodifier st ts = Some (x, r) -> fmodifier st (ts ++ Z) = Some (x, r ++ Z).
  Proof.
    intros st ts x r H. unfold fmodifier in *. destruct ts as [|t ts']; [discriminate|]. rewrite nth_cons.
    destruct (nth_is 0 col0 (t :: ts')); [discriminate|]. destruct (until st is_eol_or_terminator (t :: ts')) as [[[b c] rest]|] eqn:U; [|discriminate].
    injection H as <- <-. rewrite (until_more _ _ _ _ _ _ U). reflexivity.
  Qed.
  Lemma close_more : forall st c ts a r, fclose_line st c ts = Some (a, r) -> fclose_line st c (ts ++ Z) = Some (a, r ++ Z).
  Proof.
    intros st c [|e ts] a r H.
    - cbn in H. injection H as <- <-. cbn [app]. pose proof (head_add is_eol not_eol) as E. destruct HZ as [Z0|T]; [rewrite Z0; reflexivity|].
      destruct Z as [|z Z']; [reflexivity|]. cbn [fclose_line]. cbn in T. rewrite E, T, orb_true_r. reflexivity.
    - cbn [app fclose_line] in *. change (e :: ts ++ Z) with ((e :: ts) ++ Z). rewrite stopped_cons. destruct (is_eol e); [injection H as <- <-; reflexivity|].
      destruct (stopped st (e :: ts) || is_terminator e); [|discriminate]. injection H as <- <-. reflexivity.
  Qed.
  Lemma embed_more : forall st ts x r, fembed st ts = Some (x, r) -> fembed st (ts ++ Z) = Some (x, r ++ Z).
  Proof.
    intros st [|t ts] x r H; [discriminate|]. cbn [app fembed] in *. destruct (is_left_curly2 t); [|discriminate].
    destruct (until st is_pipe ts) as [[[b1 c1] r1]|] eqn:U1; [|discriminate]. rewrite (until_more _ _ _ _ _ _ U1).
    destruct (until st is_right_curly2 r1) as [[[b2 c2] r2]|] eqn:U2; [|discriminate]. rewrite (until_more _ _ _ _ _ _ U2).
    destruct (fclose_line st c2 r2) as [[cl rest]|] eqn:C; [|discriminate]. rewrite (close_more _ _ _ _ _ C). injection H as <- <-. reflexivity.
  Qed.

  Lemma not_backtick3 : forall t, is_terminator t = true -> is_backtick3 t = false. Proof. no_term. Qed.
  Lemma not_two_bangs : forall t, is_terminator t = true -> is_two_bangs t = false. Proof. no_term. Qed.
  Lemma not_one_bang : forall t, is_terminator t = true -> is_one_bang t = false. Proof. no_term. Qed.
  Lemma not_coll_start : forall t, is_terminator t = true -> is_collapsible_start t = false. Proof. no_term. Qed.
  Lemma not_space_or_eol : forall t, is_terminator t = true -> is_space_or_eol t = false. Proof. no_term. Qed.
  Lemma not_space1_or_eol : forall t, is_terminator t = true -> is_space_1 t || is_eol t = false.
  Proof. intros t H. rewrite (not_space t H), (not_eol t H). reflexivity. Qed.
  Local Hint Resolve not_backtick3 not_two_bangs not_one_bang not_coll_start not_space_or_eol not_space1_or_eol : core.

  Lemma fence_add : forall ts, ffence (ts ++ Z) = add (ffence ts).
  Proof.
    intros ts. unfold ffence. rewrite (seq_add [is_backtick3; is_eol]), (seq_add [is_backtick3]) by auto.
    destruct (fseq [is_backtick3; is_eol] ts) as [[a b]|]; reflexivity.
  Qed.
  Lemma coll_end_add : forall ts, fcollapsible_end (ts ++ Z) = add (fcollapsible_end ts).
  Proof.
    intros ts. unfold fcollapsible_end. rewrite (seq_add [is_collapsible_end; is_eol]), (seq_add [is_collapsible_end]) by auto.
    destruct (fseq [is_collapsible_end; is_eol] ts) as [[a b]|]; reflexivity.
  Qed.
  Lemma local_icon : local ficon.
  Proof.
    intros st ts K. unfold ficon. rewrite (seq_add [is_one_bang; is_space_1]) by auto. destruct (fseq [is_one_bang; is_space_1] ts) as [[o r]|]; [|reflexivity].
    cbn [add]. rewrite (until_add st is_eol r K). destruct (until st is_eol r) as [[[b c] rest]|]; reflexivity.
  Qed.

  (** A token at the start of a line comes after a line ending. *)
  Lemma col0_after : forall s a t b c r, linked s (a ++ [t] ++ b ++ c :: r) -> col0 c = true -> is_eol_or_terminator t = false -> existsb is_eol_or_terminator b = true.
  Proof.
    intros s a t b c r L C T. destruct b as [|b0 b'] using rev_ind.
    - exfalso. cbn in L. apply linked_pair in L. destruct L as (_ & _ & _ & L). apply L in C. unfold is_eol_or_terminator, is_eol, is_terminator in T.
      destruct C as [C|C]; rewrite C in T; discriminate.
    - clear IHb'. replace (a ++ [t] ++ (b' ++ [b0]) ++ c :: r) with ((a ++ [t] ++ b') ++ b0 :: c :: r) in L by (rewrite <- !app_assoc; reflexivity).
      apply linked_pair in L. destruct L as (_ & _ & _ & L). apply L in C. rewrite existsb_app. cbn. unfold is_eol_or_terminator, is_eol, is_terminator.
      destruct C as [C|C]; rewrite C; cbn; rewrite ?orb_true_r; reflexivity.
  Qed.
  Lemma col0_of3 : forall t, is_backtick3 t = true -> col0 t = true.
  Proof. intros t H. unfold is_backtick3 in H. apply andb_true_iff in H. destruct H as [H _]. apply andb_true_iff in H. apply H. Qed.

  Lemma code_more : forall s st ts x r, linked s ts -> fcode st ts = Some (x, r) -> fcode st (ts ++ Z) = Some (x, r ++ Z).
  Proof.
    intros s st ts x r L H. unfold fcode in *. rewrite fence_add. destruct (ffence ts) as [[o r0]|] eqn:F; [|discriminate]. cbn [add].
    destruct (negb (is_eol (last o (mk_token Literal 0 0 (mk_pos 0 0 0) false)))) eqn:M.
    - destruct (fmodifier [] r0) as [[y r1]|] eqn:FM.
      + rewrite (modifier_more _ _ _ _ FM). cbn [opt_tree] in *. destruct (until [] is_backtick3 r1) as [[[b c] r2]|] eqn:U; [|discriminate].
        rewrite (until_more _ _ _ _ _ _ U). destruct (fclose_line st c r2) as [[cl rest]|] eqn:C; [|discriminate]. rewrite (close_more _ _ _ _ _ C).
        injection H as <- <-. reflexivity.
      + cbn [opt_tree] in H. destruct (until [] is_backtick3 r0) as [[[b c] r2]|] eqn:U; [|discriminate].
        pose proof (until_app _ _ _ _ _ _ U) as (E & Ec).
        assert (X : fmodifier [] (r0 ++ Z) = None).
        { exfalso. unfold ffence in F. cbn [fseq] in F. destruct ts as [|t0 ts0]; [discriminate|]. destruct (is_backtick3 t0) eqn:B0; [|discriminate].
          assert (O : o = [t0] /\ r0 = ts0).
          { destruct ts0 as [|e ts1]; [injection F as <- <-; auto|]. destruct (is_eol e) eqn:Ee; [|injection F as <- <-; auto].
            injection F as <- <-. cbn in M. rewrite Ee in M. discriminate. }
          destruct O as [-> <-]. rewrite E in L. pose proof (col0_after s [] t0 b c r2 L (col0_of3 c Ec)) as Y.
          assert (T0 : is_eol_or_terminator t0 = false).
          { unfold is_backtick3 in B0. apply andb_true_iff in B0. destruct B0 as [B0 _]. apply andb_true_iff in B0. destruct B0 as [B0 _]. apply kind_eqb_eq in B0.
            unfold is_eol_or_terminator, is_eol, is_terminator. rewrite B0. reflexivity. }
          specialize (Y T0). unfold fmodifier in FM. destruct (nth_is 0 col0 r0) eqn:C0.
          { destruct r0 as [|r00 r0']; [discriminate|]. cbn in C0. destruct b as [|b0 b']; [discriminate|]. injection E as <- _.
            pose proof (col0_after s [] t0 [] r00 (b' ++ c :: r2) L C0 T0). discriminate. }
          destruct (until [] is_eol_or_terminator r0) as [[[b1 c1] r1]|] eqn:U1; [discriminate|].
          assert (V : forall l, until [] is_eol_or_terminator l = None -> existsb is_eol_or_terminator l = false).
          { intros l. induction l as [|v l IHl]; intros V; [reflexivity|]. cbn in *. destruct (is_eol_or_terminator v); [discriminate|].
            destruct (until [] is_eol_or_terminator l) as [[[? ?] ?]|]; [discriminate|]. cbn. apply IHl. reflexivity. }
          apply V in U1. rewrite E, existsb_app, Y in U1. discriminate. }
        rewrite X. cbn [opt_tree]. rewrite (until_more _ _ _ _ _ _ U). destruct (fclose_line st c r2) as [[cl rest]|] eqn:C; [|discriminate]. rewrite (close_more _ _ _ _ _ C).
        injection H as <- <-. reflexivity.
    - destruct (until [] is_backtick3 r0) as [[[b c] r2]|] eqn:U; [|discriminate].
      rewrite (until_more _ _ _ _ _ _ U). destruct (fclose_line st c r2) as [[cl rest]|] eqn:C; [|discriminate]. rewrite (close_more _ _ _ _ _ C).
      injection H as <- <-. reflexivity.
  Qed.

  Lemma with_eol_add : forall c ts, with_eol c (ts ++ Z) = (fst (with_eol c ts), snd (with_eol c ts) ++ Z).
  Proof.
    intros c [|e r]; cbn [app].
    - pose proof (head_add is_eol not_eol) as E. destruct Z as [|z Z']; [reflexivity|]. cbn [with_eol]. rewrite E. reflexivity.
    - cbn [with_eol]. destruct (is_eol e); reflexivity.
  Qed.
  Lemma loop_more : forall n m st ts k c rest, length ts < n -> length ts < m -> fhighlight_loop n st ts = Some (k, c, rest) ->
    fhighlight_loop m st (ts ++ Z) = Some (k, c, rest ++ Z).
  Proof.
    induction n as [|n IH]; intros m st ts k c rest Hn Hm H; [lia|]. destruct m as [|m]; [lia|]. cbn [fhighlight_loop] in H. destruct ts as [|t r]; [discriminate|].
    cbn [app fhighlight_loop]. change (t :: r ++ Z) with ((t :: r) ++ Z). rewrite stopped_cons. destruct (stopped st (t :: r)) eqn:S0; [discriminate|].
    destruct (is_two_bangs t) eqn:B.
    - rewrite with_eol_add. destruct (with_eol t r) as [a b]. injection H as <- <- <-. reflexivity.
    - destruct (if is_terminator t then ([Leaf [t]], r) else ([], t :: r)) as [l r1] eqn:HL.
      assert (HL' : (if is_terminator t then ([Leaf [t]], r ++ Z) else ([], (t :: r) ++ Z)) = (l, r1 ++ Z)).
      { destruct (is_terminator t); injection HL as <- <-; reflexivity. }
      rewrite HL'. rewrite (paragraph_add (StopTerminator :: StopHighlightEnd :: st) r1 (or_introl eq_refl)).
      destruct (fparagraph (StopTerminator :: StopHighlightEnd :: st) r1) as [par r2] eqn:P. cbn [fst snd].
      destruct (highlight_turn _ _ _ _ _ _ _ S0 B HL P) as [_ L].
      destruct (fhighlight_loop n st r2) as [[[k' c'] r3]|] eqn:F; [|discriminate]. injection H as <- <- <-.
      rewrite (IH m st r2 k' c' r3) by (try exact F; lia). reflexivity.
  Qed.
  Lemma last_in : forall (o : list token) t d, last (o ++ [t]) d = t.
  Proof. intros o t d. apply last_last. Qed.
  Lemma until_has : forall st m ts b c r, until st m ts = Some (b, c, r) -> existsb m ts = true.
  Proof. intros st m ts b c r U. apply until_app in U. destruct U as [-> E]. rewrite existsb_app. cbn. rewrite E, orb_true_r. reflexivity. Qed.
  Lemma highlight_more : forall s st ts x r, linked s ts -> fhighlight st ts = Some (x, r) -> fhighlight st (ts ++ Z) = Some (x, r ++ Z).
  Proof.
    intros s st ts x r L H. unfold fhighlight in *. rewrite seq_add by auto.
    destruct (fseq [is_two_bangs; fun t => is_space_1 t || is_eol t] ts) as [[o r0]|] eqn:Q; [|discriminate]. cbn [add].
    set (d := mk_token Literal 0 0 (mk_pos 0 0 0) false) in *.
    (* title *)
    destruct (if negb (is_eol (last o d)) then opt_tree (fmodifier st r0) r0 else ([], r0)) as [k1 r1] eqn:T.
    destruct (opt_tree (ficon (StopTerminator :: st) r1) r1) as [k2 r2] eqn:I.
    assert (I' : opt_tree (ficon (StopTerminator :: st) (r1 ++ Z)) (r1 ++ Z) = (k2, r2 ++ Z)).
    { rewrite (local_icon (StopTerminator :: st) r1 (or_introl eq_refl)). destruct (ficon (StopTerminator :: st) r1) as [[y q]|]; injection I as <- <-; reflexivity. }
    destruct (nth_is 0 col0 r2) eqn:C0; [|discriminate].
    assert (T' : (if negb (is_eol (last o d)) then opt_tree (fmodifier st (r0 ++ Z)) (r0 ++ Z) else ([], r0 ++ Z)) = (k1, r1 ++ Z)).
    { destruct (negb (is_eol (last o d))) eqn:M; [|injection T as <- <-; reflexivity].
      destruct (fmodifier st r0) as [[y q]|] eqn:FM.
      - injection T as <- <-. rewrite (modifier_more _ _ _ _ FM). reflexivity.
      - injection T as <- <-. assert (N : fmodifier st (r0 ++ Z) = None); [|rewrite N; reflexivity].
        apply fseq_app in Q. destruct Q as (-> & Lo & _). destruct o as [|o1 [|o2 [|]]]; try discriminate Lo. cbn in M.
        unfold fmodifier in *. destruct (nth_is 0 col0 r0) eqn:Cr; [rewrite (col0_add _ Cr); reflexivity|].
        destruct (until st is_eol_or_terminator r0) as [[[b c] q]|] eqn:U; [discriminate|].
        destruct (ficon (StopTerminator :: st) r0) as [[y q]|] eqn:FI.
        2:{ injection I as <- <-. congruence. }
        assert (Ex : existsb is_eol_or_terminator r0 = true).
        { unfold ficon in FI. destruct (fseq [is_one_bang; is_space_1] r0) as [[oo rr]|] eqn:Q2; [|discriminate]. apply fseq_app in Q2. destruct Q2 as (-> & _).
          destruct (until (StopTerminator :: st) is_eol rr) as [[[b c] q']|] eqn:U2; [|discriminate]. apply until_has in U2. rewrite existsb_app.
          assert (Y : existsb is_eol_or_terminator rr = true).
          { apply existsb_exists in U2. destruct U2 as (e & Ie & Ee). apply existsb_exists. exists e. split; [exact Ie|]. unfold is_eol in Ee. apply kind_eqb_eq in Ee. unfold is_eol_or_terminator. rewrite Ee. reflexivity. }
          rewrite Y, orb_true_r. reflexivity. }
        destruct r0 as [|t0 r0']; [discriminate|]. rewrite nth_cons, Cr. rewrite (until_none _ _ _ U Ex). reflexivity. }
    rewrite T', I', (col0_add _ C0).
    destruct (fhighlight_loop (S (length r2)) st r2) as [[[k3 c] rest]|] eqn:F; [|discriminate]. injection H as <- <-.
    rewrite (loop_more (S (length r2)) _ st r2 k3 c rest) by (try exact F; rewrite ?app_length; lia). reflexivity.
  Qed.

  (** *** A block that is not closed is a paragraph *)

  Definition opener (t : token) : Prop :=
    kind t = Literal \/ is_backtick3 t = true \/ is_left_curly2 t = true \/ is_two_bangs t = true \/ is_three_dashes t = true.
  Lemma opener_cases : forall t, opener t ->
    kind t = Literal \/ (kind t = Backtick /\ tlen t = 3) \/ kind t = LeftCurlyBrace \/ (kind t = Bang /\ tlen t = 2) \/ (kind t = Minus /\ tlen t = 3).
  Proof.
    intros t [H|[H|[H|[H|H]]]]; [auto|right; left|right; right; left|right; right; right; left|do 4 right]; unfold is_backtick3, is_left_curly2, is_two_bangs, is_three_dashes in H;
      apply andb_true_iff in H; destruct H as [H H2]; apply andb_true_iff in H; destruct H as [H1 _]; apply kind_eqb_eq in H1; apply Nat.eqb_eq in H2; auto.
  Qed.
  Ltac opened O := apply opener_cases in O;
    destruct O as [O|[[O O']|[O|[[O O']|[O O']]]]]; cbn; unfold is_tilde, is_underscore, is_star, is_star2, is_left_bracket, is_backtick, is_bang, is_dash5, is_hash, is_terminator, list_kind_of; rewrite ?O, ?O'; cbn; rewrite ?andb_false_r; try reflexivity.
  Lemma opener_inline : forall st t r, opener t -> finline st (t :: r) = None.
  Proof.
    intros st t r O. unfold finline, forelse, fanchor, ftitle, fstrike, fitalic, femphasis, fcode_span, fbold, fdelim. opened O.
  Qed.
  Lemma opener_simple : forall st t r, opener t -> stopped st (t :: r) = false ->
    exists b k rest, fsimple st (t :: r) = (Node NParagraph [] (Leaf (t :: b) :: k) [], rest).
  Proof.
    intros st t r O S0. unfold fsimple.
    assert (S1 : stopped (StopTerminator :: st) (t :: r) = false).
    { unfold stopped in *. cbn [existsb]. rewrite S0. replace (fmatches StopTerminator (t :: r)) with (is_terminator t) by reflexivity.
      rewrite orb_false_r. opened O. }
    assert (F : forelse flist0 (forelse fimages (forelse fbreak fheading)) (StopTerminator :: st) (t :: r) = None).
    { unfold forelse. assert (E1 : flist0 (StopTerminator :: st) (t :: r) = None).
      { unfold flist0. cbn [length]. replace (2 * S (length r) + 3) with (S (S (2 * length r + 3))) by lia. cbn [flist fitem nth_error Nat.eqb].
        replace (list_kind_of t) with (@None list_kind) by (opened O). destruct (negb _); reflexivity. }
      assert (E2 : fimages (StopTerminator :: st) (t :: r) = None).
      { unfold fimages. cbn [length fimages_loop fimage]. replace (is_bang t) with false by (opened O). rewrite S1. reflexivity. }
      rewrite E1, E2. cbn [fbreak]. replace (is_dash5 t) with false by (opened O). unfold fheading. destruct r as [|u r]; [reflexivity|].
      replace (is_hash t) with false by (opened O). reflexivity. }
    rewrite F. unfold fparagraph. change (length (t :: r)) with (S (length r)). remember (S (length r)) as N eqn:EN. cbn [fitems]. rewrite S1, (opener_inline _ t r O). cbn [app].
    assert (G : forall n acc ts, length ts < n -> acc <> [] -> exists b k rest, fitems finline n (StopTerminator :: st) acc ts = (Leaf (acc ++ b) :: k, rest)).
    { induction n as [|n IH]; intros acc ts Hn A; [lia|]. cbn [fitems]. assert (LA : leaf acc = [Leaf (acc ++ [])]) by (rewrite app_nil_r; destruct acc; [congruence|reflexivity]).
      destruct (stopped (StopTerminator :: st) ts); [rewrite LA; eauto|]. destruct (finline (StopTerminator :: st) ts) as [[x rest]|].
      - destruct (fitems finline n (StopTerminator :: st) [] rest) as [k' r']. rewrite LA. cbn. eauto.
      - destruct ts as [|u ts]; [rewrite LA; eauto|]. destruct (IH (acc ++ [u]) ts) as (b & k & rest & E); [cbn in Hn; lia|destruct acc; discriminate|].
        rewrite E, <- app_assoc. eauto. }
    destruct (G N [t] r) as (b & k & rest & E); [lia|discriminate|]. rewrite E. exists b, k, rest. reflexivity.
  Qed.

  Variable s : str.

  (** The text such a paragraph begins with. *)
  Lemma opener_open : forall t b k, tok_ok s t -> (is_backtick3 t = true \/ is_left_curly2 t = true \/ is_two_bangs t = true \/ ttext s t = s_ "{%") ->
    forallb closed_node (blocks s (Node NParagraph [] (Leaf (t :: b) :: k) [])) = false.
  Proof.
    intros t b k T O. cbn [blocks pars_of flat_map par_of app forallb closed_node]. rewrite andb_true_r. unfold ttexts. cbn [flat_map].
    assert (E : ttext s t = s_ "```" \/ ttext s t = s_ "{{" \/ ttext s t = s_ "!!" \/ ttext s t = s_ "{%").
    { destruct O as [O|[O|[O|O]]]; [left; apply x_backtick3|right; left; apply x_left_curly2|right; right; left; apply x_two_bangs|auto]; assumption. }
    destruct E as [E|[E|[E|E]]]; rewrite E; reflexivity.
  Qed.

  (** *** Documents *)

  Lemma seq_head : forall f fs t r, f t = false -> fseq (f :: fs) (t :: r) = None.
  Proof. intros f fs t r H. cbn. rewrite H. reflexivity. Qed.
  Lemma coll_flips_head : forall n st t r ts', fcollapsible (S n) st (t :: r) = CFail ts' ->
    (fseq [is_collapsible_start; is_space_or_eol] (t :: r) = None /\ ts' = t :: r)
    \/ (is_collapsible_start t = true /\ exists r', ts' = literal_of t :: r').
  Proof.
    intros n st t r ts' H. cbn [fcollapsible] in H. destruct (fseq [is_collapsible_start; is_space_or_eol] (t :: r)) as [[o q]|] eqn:Q; [right|left; split; [reflexivity|congruence]].
    apply fseq_app in Q. destruct Q as (E & Lo & A). destruct o as [|o1 o]; [discriminate|]. injection E as <- _. inversion A as [|? ? ? ? A1 A2]; subst. split; [exact A1|].
    destruct (opt_tree (fmodifier st q) q) as [k1 r1]. destruct (nth_is 0 col0 r1); [|injection H as <-; cbn; eauto].
    destruct (fdoc n (StopCollapsibleEnd :: st) r1) as [k2 r2].
    destruct (match r2 with e :: r3 => if is_eol e then ([Skip [e]], r3) else ([], r2) | [] => ([], r2) end) as [k3 r3].
    destruct (fcollapsible_end r3) as [[c rest]|]; [discriminate|]. injection H as <-. cbn. eauto.
  Qed.

  Definition doc_more n : Prop := forall m st ts k r, 3 * length ts < n -> 3 * length (ts ++ Z) < m -> linked s ts ->
    fdoc n st ts = (k, r) -> forallb closed_node (flat_map (blocks s) k) = true ->
    ts = yields k ++ r /\
    (r <> [] -> fdoc m st (ts ++ Z) = (k, r ++ Z)) /\
    (r = [] -> exists m', 3 * length Z < m' /\ fdoc m st (ts ++ Z) = (k ++ fst (fdoc m' st Z), snd (fdoc m' st Z))).
  Definition coll_more n : Prop := forall m st ts x r, 3 * length ts <= n -> 3 * length (ts ++ Z) <= m -> linked s ts ->
    fcollapsible n st ts = CMatch x r -> forallb closed_node (blocks s x) = true ->
    ts = yield x ++ r /\ 1 <= length (yield x) /\ fcollapsible m st (ts ++ Z) = CMatch x (r ++ Z).

  Lemma docs_more : forall n, doc_more n /\ coll_more n.
  Proof.
    induction n as [n IHn] using lt_wf_ind. destruct n as [|n].
    { split; red; intros; [lia|]. destruct ts; [discriminate|cbn in *; lia]. }
    destruct (IHn n (Nat.lt_succ_diag_r n)) as [ID IC]. split.
    - intros m st ts k r Hn Hm L H C. destruct m as [|m]; [lia|]. cbn [fdoc] in H. destruct ts as [|t ts'].
      { injection H as <- <-. split; [reflexivity|]. split; [congruence|]. intros _. exists (S m). split; [exact Hm|]. cbn [app]. destruct (fdoc (S m) st Z). reflexivity. }
      destruct (stopped st (t :: ts')) eqn:S0.
      { injection H as <- <-. split; [reflexivity|]. split; [|discriminate]. intros _. cbn [app fdoc]. change (t :: ts' ++ Z) with ((t :: ts') ++ Z). rewrite stopped_cons, S0. reflexivity. }
      (* one block *)
      assert (B : exists x r1, fdoc (S n) st (t :: ts') = (x :: fst (fdoc n st r1), snd (fdoc n st r1)) /\
                (forallb closed_node (blocks s x) = true -> t :: ts' = yield x ++ r1 /\ 1 <= length (yield x)
                   /\ fdoc (S m) st ((t :: ts') ++ Z) = (x :: fst (fdoc m st (r1 ++ Z)), snd (fdoc m st (r1 ++ Z))))).
      { cbn [fdoc app]. rewrite S0. change (t :: ts' ++ Z) with ((t :: ts') ++ Z). rewrite stopped_cons, S0.
        destruct (is_terminator t) eqn:ET.
        { exists (Leaf [t]), ts'. destruct (fdoc n st ts'). split; [reflexivity|]. intros _. split; [reflexivity|]. split; [cbn; lia|]. destruct (fdoc m st (ts' ++ Z)). reflexivity. }
        assert (T0 : tok_ok s t) by (destruct L as [F _]; inversion F; assumption).
        assert (Hlen : 3 * length (t :: ts') <= n) by lia.
        destruct (fcode st (t :: ts')) as [[x r1]|] eqn:EC.
        { exists x, r1. destruct (fdoc n st r1). split; [reflexivity|]. intros _. rewrite (code_more s st _ _ _ L EC). apply covers_code in EC. destruct EC as [E1 E2].
          split; [exact E1|]. split; [exact E2|]. destruct (fdoc m st (r1 ++ Z)). reflexivity. }
        assert (EC' : is_backtick3 t = false -> fcode st ((t :: ts') ++ Z) = None).
        { intros X. unfold fcode. rewrite fence_add. unfold ffence. cbn [fseq]. rewrite X. reflexivity. }
        destruct (fcollapsible n st (t :: ts')) as [x r1|us] eqn:EL.
        { exists x, r1. destruct (fdoc n st r1). split; [reflexivity|]. intros Cx. destruct (IC m st (t :: ts') x r1 Hlen ltac:(lia) L EL Cx) as (E1 & E2 & E3).
          assert (NB : is_backtick3 t = false).
          { destruct n as [|n']; [cbn in Hlen; lia|]. cbn [fcollapsible] in EL. cbn [fseq] in EL. destruct (is_collapsible_start t) eqn:CS; [|discriminate].
            unfold is_collapsible_start in CS. apply andb_true_iff in CS. destruct CS as [CS _]. apply kind_eqb_eq in CS. unfold is_backtick3. rewrite CS. reflexivity. }
          rewrite (EC' NB), E3. split; [exact E1|]. split; [exact E2|]. destruct (fdoc m st (r1 ++ Z)). reflexivity. }
        destruct n as [|n']; [cbn in Hlen; lia|]. destruct (coll_flips_head n' st t ts' us EL) as [[Q ->]|[CS [r' ->]]].
        2:{ (* a failed collapsible *)
          assert (O : opener (literal_of t)) by (left; reflexivity).
          assert (S1 : stopped st (literal_of t :: r') = false).
          { assert (FL : flips (t :: ts') (literal_of t :: r')).
            { destruct (docs_ok (3 * length (t :: ts')) (S n')) as [_ D]. assert (V : vtok s ([] ++ t :: ts')).
              { destruct L as [F _]. cbn. apply Forall_forall. intros u Iu. rewrite Forall_forall in F. destruct (F u Iu) as (y & Hy & _). eauto. }
              specialize (D s [] (t :: ts') st [] ltac:(discriminate) ltac:(lia) Hlen V). unfold coll_ok in D. rewrite EL in D. apply D. }
            rewrite (flips_stopped st _ _ FL). exact S0. }
          destruct (opener_simple st _ r' O S1) as (b & k0 & rest & ES).
          assert (EH : forelse fembed fhighlight st (literal_of t :: r') = None) by reflexivity.
          rewrite EH, ES. exists (Node NParagraph [] (Leaf (literal_of t :: b) :: k0) []), rest. destruct (fdoc (S n') st rest). split; [reflexivity|]. intros Cx. exfalso.
          cbn [blocks pars_of flat_map par_of app forallb closed_node] in Cx. rewrite andb_true_r in Cx. unfold ttexts in Cx. cbn [flat_map] in Cx.
          assert (E : ttext s (literal_of t) = s_ "{%") by (change (ttext s (literal_of t)) with (ttext s t); apply x_collapsible_start; assumption).
          rewrite E in Cx. discriminate. }
        assert (EL' : forall m, fcollapsible m st ((t :: ts') ++ Z) = CFail ((t :: ts') ++ Z)).
        { intros [|m0]; [reflexivity|]. cbn [fcollapsible]. rewrite seq_add by auto. rewrite Q. reflexivity. }
        (* embeds and highlights *)
        assert (EH : forall x r1, forelse fembed fhighlight st (t :: ts') = Some (x, r1) ->
                  t :: ts' = yield x ++ r1 /\ 1 <= length (yield x) /\ is_backtick3 t = false /\ forelse fembed fhighlight st ((t :: ts') ++ Z) = Some (x, r1 ++ Z)).
        { intros x r1 E. pose proof (covers_orelse _ _ covers_embed covers_highlight _ _ _ _ E) as [E1 E2]. split; [exact E1|]. split; [exact E2|]. unfold forelse in *.
          destruct (fembed st (t :: ts')) as [[y q]|] eqn:EE.
          - injection E as <- <-. split; [|rewrite (embed_more _ _ _ _ EE); reflexivity]. cbn [fembed] in EE. destruct (is_left_curly2 t) eqn:X; [|discriminate].
            unfold is_left_curly2 in X. apply andb_true_iff in X. destruct X as [X _]. apply andb_true_iff in X. destruct X as [X _]. apply kind_eqb_eq in X. unfold is_backtick3. rewrite X. reflexivity.
          - assert (X : is_two_bangs t = true).
            { unfold fhighlight in E. cbn [fseq] in E. destruct (is_two_bangs t); [reflexivity|discriminate]. }
            unfold is_two_bangs in X. apply andb_true_iff in X. destruct X as [X _]. apply andb_true_iff in X. destruct X as [X _]. apply kind_eqb_eq in X.
            split; [unfold is_backtick3; rewrite X; reflexivity|]. cbn [app fembed]. unfold is_left_curly2. rewrite X. cbn [kind_eqb andb].
            change (t :: ts' ++ Z) with ((t :: ts') ++ Z). apply (highlight_more s); assumption. }
        destruct (forelse fembed fhighlight st (t :: ts')) as [[x r1]|] eqn:EE.
        { exists x, r1. destruct (fdoc (S n') st r1). split; [reflexivity|]. intros _. destruct (EH x r1 eq_refl) as (E1 & E2 & E3 & E4).
          rewrite (EC' E3), (EL' m), E4. split; [exact E1|]. split; [exact E2|]. destruct (fdoc m st (r1 ++ Z)). reflexivity. }
        destruct (fsimple st (t :: ts')) as [x r1] eqn:ES. exists x, r1. destruct (fdoc (S n') st r1). split; [reflexivity|]. intros Cx.
        assert (NO : is_backtick3 t = false /\ is_left_curly2 t = false /\ is_two_bangs t = false).
        { assert (X : ~ (is_backtick3 t = true \/ is_left_curly2 t = true \/ is_two_bangs t = true)).
          { intros X. assert (O : opener t) by (unfold opener; tauto). destruct (opener_simple st t ts' O S0) as (b & k0 & rest & E). rewrite ES in E. injection E as -> ->.
            rewrite (opener_open t b k0 T0) in Cx; [discriminate|]. tauto. }
          destruct (is_backtick3 t), (is_left_curly2 t), (is_two_bangs t); tauto. }
        destruct NO as (N1 & N2 & N3). rewrite (EC' N1), (EL' m).
        assert (EE' : forelse fembed fhighlight st ((t :: ts') ++ Z) = None).
        { unfold forelse. cbn [app fembed]. rewrite N2. unfold fhighlight. cbn [fseq]. rewrite N3. reflexivity. }
        rewrite EE'. rewrite (simple_add st (t :: ts')), ES. cbn [fst snd].
        split; [|split; [eapply fsimple_progress; [exact ES|exact S0|exact ET]|destruct (fdoc m st (r1 ++ Z)); reflexivity]].
        unfold fsimple in ES. destruct (forelse flist0 (forelse fimages (forelse fbreak fheading)) (StopTerminator :: st) (t :: ts')) as [[y q]|] eqn:EO.
        - injection ES as <- <-. apply (covers_orelse _ _ covers_list (covers_orelse _ _ covers_images (covers_orelse _ _ covers_break covers_heading))) in EO. apply EO.
        - apply fparagraph_app in ES. exact ES. }
      destruct B as (x & r1 & E & B). cbn [fdoc] in E. rewrite S0 in E. cbn [fdoc] in H. rewrite E in H. injection H as <- <-.
      cbn [flat_map] in C. rewrite forallb_app in C. apply andb_true_iff in C. destruct C as [Cx Ck]. destruct (B Cx) as (Ey & Ly & EZ). rewrite EZ.
      assert (LL : length (t :: ts') = length (yield x) + length r1) by (rewrite Ey; apply app_length).
      assert (Lr : linked s r1) by (rewrite Ey in L; apply linked_app in L; apply L).
      assert (LZ : length ((t :: ts') ++ Z) = length (yield x) + length (r1 ++ Z)) by (rewrite !app_length in *; lia).
      destruct (fdoc n st r1) as [k2 r2] eqn:F. cbn [fst snd] in *. destruct (ID m st r1 k2 r2 ltac:(lia) ltac:(lia) Lr F Ck) as (I1 & I2 & I3).
      split; [rewrite Ey, I1; cbn; unfold yields; rewrite <- app_assoc; reflexivity|]. split.
      + intros NE. rewrite (I2 NE). reflexivity.
      + intros Er. destruct (I3 Er) as (m' & Hm' & I4). exists m'. split; [exact Hm'|]. rewrite I4. reflexivity.
    - intros m st ts x r Hn Hm L H C. destruct m as [|m]; [destruct ts; [discriminate|cbn in *; lia]|]. cbn [fcollapsible] in H |- *. rewrite seq_add by auto.
      destruct (fseq [is_collapsible_start; is_space_or_eol] ts) as [[o r0]|] eqn:Q; [|discriminate]. cbn [add].
      apply fseq_app in Q. destruct Q as (E0 & Lo & _). cbn in Lo.
      destruct (opt_tree (fmodifier st r0) r0) as [k1 r1] eqn:M. destruct (nth_is 0 col0 r1) eqn:C0; [|discriminate].
      assert (M' : opt_tree (fmodifier st (r0 ++ Z)) (r0 ++ Z) = (k1, r1 ++ Z) /\ r0 = yields k1 ++ r1 /\ flat_map (fun d => match d with Node NDocument _ k2 _ => flat_map (blocks s) k2 | _ => [] end) k1 = []).
      { destruct (fmodifier st r0) as [[y q]|] eqn:FM; injection M as <- <-.
        - rewrite (modifier_more _ _ _ _ FM). split; [reflexivity|]. split; [apply covers_modifier in FM; cbn; rewrite app_nil_r; apply FM|].
          unfold fmodifier in FM. destruct (nth_is 0 col0 r0); [discriminate|]. destruct (until st is_eol_or_terminator r0) as [[[b c] q']|]; [|discriminate]. injection FM as <- _. reflexivity.
        - split; [|split; reflexivity]. unfold fmodifier. rewrite (col0_add _ C0). reflexivity. }
      destruct M' as (-> & E1 & D1). rewrite (col0_add _ C0).
      destruct (fdoc n (StopCollapsibleEnd :: st) r1) as [k2 r2] eqn:F.
      destruct (match r2 with e :: r3 => if is_eol e then ([Skip [e]], r3) else ([], r2) | [] => ([], r2) end) as [k3 r3] eqn:S3.
      destruct (fcollapsible_end r3) as [[c rest]|] eqn:CE; [|discriminate]. injection H as <- <-.
      assert (D3 : flat_map (fun d => match d with Node NDocument _ k2 _ => flat_map (blocks s) k2 | _ => [] end) k3 = []).
      { destruct r2 as [|e r2']; [injection S3 as <- <-; reflexivity|]. destruct (is_eol e); injection S3 as <- <-; reflexivity. }
      assert (E3 : r2 = yields k3 ++ r3).
      { destruct r2 as [|e r2']; [injection S3 as <- <-; reflexivity|]. destruct (is_eol e); injection S3 as <- <-; reflexivity. }
      cbn [blocks forallb closed_node] in C. rewrite andb_true_r, !flat_map_app, D1 in C. cbn [flat_map app] in C. rewrite D3 in C. rewrite !app_nil_r in C.
      assert (Lr : linked s r1) by (rewrite E0, E1 in L; apply linked_app in L; destruct L as [_ L]; apply linked_app in L; apply L).
      assert (LL : length ts = 2 + length (yields k1) + length r1) by (rewrite E0, E1, !app_length; lia).
      assert (NE : r2 <> []).
      { intros ->. injection S3 as <- <-. discriminate CE. }
      destruct (ID m (StopCollapsibleEnd :: st) r1 k2 r2 ltac:(lia) ltac:(rewrite app_length in *; lia) Lr F C) as (I1 & I2 & _). rewrite (I2 NE).
      assert (S3' : match r2 ++ Z with e :: r3 => if is_eol e then ([Skip [e]], r3) else ([], r2 ++ Z) | [] => ([], r2 ++ Z) end = (k3, r3 ++ Z)).
      { destruct r2 as [|e r2']; [congruence|]. cbn [app]. destruct (is_eol e); injection S3 as <- <-; reflexivity. }
      rewrite S3', coll_end_add, CE. cbn [add]. split; [|split; [cbn; rewrite app_length; lia|reflexivity]].
      apply fcollapsible_end_app in CE. destruct CE as [CE _]. cbn [yield]. fold (yields (k1 ++ [Node NDocument [] k2 []] ++ k3)). rewrite !yields_app. cbn [yields flat_map yield app].
      fold (yields k2). rewrite E0, E1, I1, E3, CE. rewrite ?app_nil_r, <- ?app_assoc. reflexivity.
  Qed.
End Ext.

(** ** The fuel does not matter *)

Lemma docs_fuel : forall n,
  (forall s m st ts, 3 * length ts < n -> 3 * length ts < m -> vtok s ts -> fdoc n st ts = fdoc m st ts)
  /\ (forall s m st ts, ts <> [] -> 3 * length ts <= n -> 3 * length ts <= m -> vtok s ts -> fcollapsible n st ts = fcollapsible m st ts).
Proof.
  induction n as [n IHn] using lt_wf_ind. destruct n as [|n].
  { split; intros; [lia|]. destruct ts; [congruence|cbn in *; lia]. }
  destruct (IHn n (Nat.lt_succ_diag_r n)) as [ID IC]. split.
  - intros s m st ts Hn Hm V. destruct m as [|m]; [lia|]. cbn [fdoc]. destruct ts as [|t r]; [reflexivity|].
    destruct (stopped st (t :: r)) eqn:S0; [reflexivity|].
    rewrite (IC s m st (t :: r)) by (try discriminate; try exact V; lia).
    set (blk := if is_terminator t then (Leaf [t], r)
          else match fcode st (t :: r) with
               | Some y => y
               | None => match fcollapsible m st (t :: r) with
                         | CMatch y r1 => (y, r1)
                         | CFail ts' => match forelse fembed fhighlight st ts' with
                                        | Some y => y | None => fsimple st ts' end
                         end
               end).
    assert (B : flips (t :: r) (yield (fst blk) ++ snd blk) /\ 1 <= length (yield (fst blk))).
    { unfold blk. destruct (is_terminator t) eqn:ET; [split; [apply flips_refl|cbn; lia]|].
      destruct (fcode st (t :: r)) as [[x r1]|] eqn:EC; [apply covers_code in EC; cbn [fst snd]; destruct EC as [-> EC]; split; [apply flips_refl|exact EC]|].
      destruct (docs_ok (3 * length (t :: r)) m) as [_ D]. specialize (D s [] (t :: r) st [] ltac:(discriminate) ltac:(lia) ltac:(lia) V). unfold coll_ok in D.
      destruct (fcollapsible m st (t :: r)) as [x r1|us] eqn:EL; [cbn [fst snd]; split; apply D|]. destruct D as [D _].
      destruct (forelse fembed fhighlight st us) as [[x r1]|] eqn:EE.
      { apply (covers_orelse _ _ covers_embed covers_highlight) in EE. destruct EE as [-> EE]. cbn [fst snd]. split; [exact D|exact EE]. }
      destruct (fsimple st us) as [x r1] eqn:ES. cbn [fst snd].
      assert (S1 : stopped st us = false) by (rewrite (flips_stopped _ _ _ D); exact S0).
      assert (T1 : nth_is 0 is_terminator us = false).
      { destruct us as [|u us]; [reflexivity|]. inversion D as [|? ? ? ? [->|[_ ->]] D']; subst; [exact ET|reflexivity]. }
      split; [|eapply fsimple_progress; eassumption]. replace (yield x ++ r1) with us; [exact D|].
      unfold fsimple in ES. destruct (forelse flist0 (forelse fimages (forelse fbreak fheading)) (StopTerminator :: st) us) as [[y q]|] eqn:EO.
      - injection ES as <- <-. apply (covers_orelse _ _ covers_list (covers_orelse _ _ covers_images (covers_orelse _ _ covers_break covers_heading))) in EO. apply EO.
      - apply fparagraph_app in ES. exact ES. }
    clearbody blk. destruct blk as [x r1]. cbn [fst snd] in B. destruct B as [F Lx]. pose proof (flips_length _ _ F) as LL. rewrite app_length in LL.
    assert (V1 : vtok s r1) by (apply (flips_vtok s _ _ F) in V; apply Forall_app in V; apply V).
    rewrite (ID s m st r1) by (try exact V1; lia). reflexivity.
  - intros s m st ts NE Hn Hm V. destruct m as [|m]; [destruct ts; [congruence|cbn in *; lia]|]. cbn [fcollapsible].
    destruct (fseq [is_collapsible_start; is_space_or_eol] ts) as [[o r0]|] eqn:Q; [|reflexivity]. apply fseq_app in Q. destruct Q as (E0 & Lo & _). cbn in Lo.
    destruct (opt_tree (fmodifier st r0) r0) as [k1 r1] eqn:M. apply (opt_tree_app fmodifier st r0 k1 r1 covers_modifier) in M. destruct (nth_is 0 col0 r1); [|reflexivity].
    assert (LL : length ts = 2 + length (yields k1) + length r1) by (rewrite E0, M, !app_length; lia).
    assert (V1 : vtok s r1) by (rewrite E0, M in V; apply Forall_app in V; destruct V as [_ V]; apply Forall_app in V; apply V).
    rewrite (ID s m (StopCollapsibleEnd :: st) r1) by (try exact V1; lia). reflexivity.
Qed.

(** ** Texts *)

Definition same_text (s s' : str) (t u : token) : Prop := ttext s t = ttext s' u.
Inductive same (s s' : str) : tree -> tree -> Prop :=
| same_leaf : forall a b, Forall2 (same_text s s') a b -> same s s' (Leaf a) (Leaf b)
| same_skip : forall a b, same s s' (Skip a) (Skip b)
| same_node : forall n o o' k k' c c', Forall2 (same_text s s') o o' -> Forall2 (same s s') k k' -> same s s' (Node n o k c) (Node n o' k' c').

Lemma same_texts : forall s s' a b, Forall2 (same_text s s') a b -> ttexts s a = ttexts s' b.
Proof. intros s s' a b F. induction F as [|t u a b H F IH]; [reflexivity|]. cbn. rewrite H. unfold ttexts in IH. rewrite IH. reflexivity. Qed.

Lemma alikes_len : forall a b, Forall2 alike a b -> length a = length b.
Proof. intros a b F. induction F; cbn; congruence. Qed.
Lemma forall2_split : forall A (R : A -> A -> Prop) a b c d, length a = length c -> Forall2 R (a ++ b) (c ++ d) -> Forall2 R a c /\ Forall2 R b d.
Proof.
  intros A R a. induction a as [|x a IH]; intros b [|y c] d E F; try discriminate; [split; [constructor|exact F]|]. cbn in *. inversion F; subst.
  destruct (IH b c d) as [X Y]; [congruence|assumption|]. split; [constructor; assumption|exact Y].
Qed.

Lemma twins_same : forall s s' t u, twins t u -> Forall2 (same_text s s') (yield t) (yield u) -> same s s' t u.
Proof.
  intros s s'. induction t as [ts|ts|n o k c IH] using tree_ind'; intros u T F; inversion T; subst; cbn [yield] in F; constructor.
  - exact F.
  - apply forall2_split in F; [apply F|apply alikes_len; assumption].
  - apply forall2_split in F; [|apply alikes_len; assumption]. destruct F as [_ F].
    match goal with H : Forall2 twins _ _ |- _ => rename H into K end.
    apply forall2_split in F; [|apply alikes_len, (twins_yields _ _ K)]. destruct F as [F _]. clear T.
    induction K as [|x y k k' Hxy K IHk]; [constructor|]. inversion IH as [|? ? I1 I2]; subst. cbn [flat_map] in F.
    apply forall2_split in F; [|apply alikes_len, (twins_yield _ _ Hxy)]. destruct F as [F1 F2]. constructor; [apply I1; assumption|apply IHk; assumption].
Qed.
Lemma twins_sames : forall s s' k k', Forall2 twins k k' -> Forall2 (same_text s s') (yields k) (yields k') -> Forall2 (same s s') k k'.
Proof.
  intros s s' k k' K. induction K as [|x y k k' Hxy K IHk]; intros F; [constructor|]. cbn [yields flat_map] in F.
  apply forall2_split in F; [|apply alikes_len, (twins_yield _ _ Hxy)]. destruct F as [F1 F2]. constructor; [apply twins_same; assumption|apply IHk; assumption].
Qed.

Section Same.
  Variables s s' : str.
  Notation sames := (Forall2 (same s s')).

  Lemma same_map : forall A (f g : tree -> list A) k k', (forall t u, same s s' t u -> f t = g u) -> sames k k' -> flat_map f k = flat_map g k'.
  Proof. intros A f g k k' H F. induction F as [|t u k k' X F IH]; [reflexivity|]. cbn. rewrite (H t u X), IH. reflexivity. Qed.
  Lemma same_inner : forall k k', sames k k' -> inner s k = inner s' k'.
  Proof. intros k k'. apply same_map. intros t u H. destruct H; [apply same_texts; assumption|reflexivity|reflexivity]. Qed.
  Lemma same_child : forall n k k', sames k k' -> child_text s n k = child_text s' n k'.
  Proof.
    intros n k k' F. unfold child_text. assert (X : Forall2 sames (flat_map (child n) k) (flat_map (child n) k')).
    { induction F as [|t u k k' H F IH]; [constructor|]. cbn [flat_map]. apply Forall2_app; [|exact IH]. destruct H; cbn; [constructor|constructor|].
      destruct (node_eq_dec n n0); repeat constructor. assumption. }
    destruct X as [|a b ? ? X _]; [reflexivity|]. rewrite (same_inner _ _ X). reflexivity.
  Qed.
  Lemma same_link : forall k k', sames k k' -> link_text s k = link_text s' k' /\ link_dest s k = link_dest s' k'.
  Proof. intros k k' F. unfold link_text, link_dest. rewrite !(same_child _ _ _ F). auto. Qed.
  Lemma same_bold : forall t u, same s s' t u -> bold_of s t = bold_of s' u.
  Proof.
    intros t u H. destruct H as [a b F|a b|n o o' k k' c c' Fo F]; cbn; [rewrite (same_texts _ _ _ _ F); reflexivity|reflexivity|]. rewrite (same_inner _ _ F). reflexivity.
  Qed.
  Lemma same_par : forall t u, same s s' t u -> par_of s t = par_of s' u.
  Proof.
    intros t u H. destruct H as [a b F|a b|n o o' k k' c c' Fo F]; cbn; [rewrite (same_texts _ _ _ _ F); reflexivity|reflexivity|].
    destruct (same_link _ _ F) as [-> ->]. rewrite (same_inner _ _ F), (same_map _ _ _ _ _ same_bold F). reflexivity.
  Qed.
  Lemma same_head : forall t u, same s s' t u -> head_of s t = head_of s' u.
  Proof.
    intros t u H. destruct H as [a b F|a b|n o o' k k' c c' Fo F]; cbn; [rewrite (same_texts _ _ _ _ F); reflexivity|reflexivity|].
    destruct (same_link _ _ F) as [-> ->]. reflexivity.
  Qed.
  Lemma same_image : forall t u, same s s' t u -> image_of s t = image_of s' u.
  Proof. intros t u H. destruct H as [a b F|a b|n o o' k k' c c' Fo F]; cbn; try reflexivity. destruct (same_link _ _ F) as [-> ->]. reflexivity. Qed.
  Lemma same_trimmed : forall t u, same s s' t u -> trimmed s t = trimmed s' u.
  Proof.
    intros t u H. unfold trimmed. destruct H as [a b F|a b|n o o' k k' c c' Fo F]; cbn; try reflexivity. unfold pars_of. rewrite (same_map _ _ _ _ _ same_par F). reflexivity.
  Qed.
  Lemma same_leafs : forall k k', sames k k' -> leaf_texts s k = leaf_texts s' k'.
  Proof. intros k k'. apply same_map. intros t u H. destruct H as [a b F|a b|n o o' k0 k0' c c' Fo F]; [rewrite (same_texts _ _ _ _ F)| |]; reflexivity. Qed.
  Lemma same_list : forall t, (forall u lvl, same s s' t u -> list_of s lvl t = list_of s' lvl u)
    /\ (forall u lvl, same s s' t u -> item_of s lvl t = item_of s' lvl u).
  Proof.
    induction t as [ts|ts|n o k c IH] using tree_ind'; [split; intros u lvl H; inversion H; reflexivity|split; intros u lvl H; inversion H; reflexivity|].
    split; intros u lvl H; inversion H as [| |? ? ? ? k' ? c' Fo F]; subst.
    - rewrite !list_of_eq. f_equal. clear H Fo. induction F as [|t u k k' X F IHk]; [reflexivity|]. cbn [flat_map]. inversion IH as [|? ? I1 I2]; subst. rewrite (IHk I2). f_equal.
      apply I1. exact X.
    - unfold item_of. destruct n; try reflexivity. destruct F as [|p p' q q' Hp Fq]; [reflexivity|]. rewrite (same_trimmed _ _ Hp). do 2 f_equal.
      destruct Fq as [|l l' q q' Hl Fq]; [reflexivity|]. f_equal. inversion IH as [|? ? _ I2]; subst. inversion I2 as [|? ? I1 _]; subst. apply I1. exact Hl.
  Qed.
  Definition doc_blocks (x : str) (d : tree) : list ynode := match d with Node NDocument _ k2 _ => flat_map (blocks x) k2 | _ => [] end.
  Lemma same_blocks2 : forall t, (forall u, same s s' t u -> blocks s t = blocks s' u) /\ (forall u, same s s' t u -> doc_blocks s t = doc_blocks s' u).
  Proof.
    induction t as [ts|ts|n o k c IH] using tree_ind'; [split; intros u H; inversion H; reflexivity|split; intros u H; inversion H; reflexivity|].
    split; intros u H; inversion H as [| |? ? ? ? k' ? c' Fo F]; subst.
    - assert (X : flat_map (doc_blocks s) k = flat_map (doc_blocks s') k').
      { clear H Fo. induction F as [|t u k k' X F IHk]; [reflexivity|]. cbn [flat_map]. inversion IH as [|? ? I1 I2]; subst. rewrite (IHk I2). f_equal. apply I1. exact X. }
      pose proof (same_inner _ _ F) as E1. pose proof (fun m => same_child m _ _ F) as E2.
      destruct n; cbn [blocks]; try reflexivity.
      all: try (unfold pars_of; rewrite (same_map _ _ _ _ _ same_par F); reflexivity).
      all: try (rewrite (same_texts _ _ _ _ Fo), (same_map _ _ _ _ _ same_head F); reflexivity).
      all: try (rewrite (same_map _ _ _ _ _ same_image F); reflexivity).
      all: try (rewrite (same_image _ _ H); reflexivity).
      all: try (rewrite (proj1 (same_list _) _ 0 H); reflexivity).
      all: try (rewrite !E2, (same_map _ _ _ _ _ same_trimmed F); reflexivity).
      all: try (rewrite !(same_leafs _ _ F); reflexivity).
      all: try (rewrite E2, E1; reflexivity).
      rewrite E2. do 2 f_equal. exact X.
    - destruct n; try reflexivity. cbn [doc_blocks]. clear H Fo. induction F as [|t u k k' X F IHk]; [reflexivity|]. cbn [flat_map]. inversion IH as [|? ? I1 I2]; subst. rewrite (IHk I2). f_equal. apply I1. exact X.
  Qed.
  Lemma same_blocks : forall k k', sames k k' -> flat_map (blocks s) k = flat_map (blocks s') k'.
  Proof. intros k k'. apply same_map. intros t u. apply same_blocks2. Qed.
End Same.

(** ** The tokens of two parts *)

Definition no_cr (a : str) : Prop := forall x, a <> x ++ [c_cr].
Lemma no_cr_tail : forall x y, no_cr (x ++ y) -> no_cr y.
Proof. intros x y H z E. apply (H (x ++ z)). rewrite E, app_assoc. reflexivity. Qed.

Section Glue.
  Variable y : str.
  Notation glue x := (x ++ c_nl :: y).

  Lemma pair_glue : forall c x, no_cr (c :: x) -> pair_kind c (glue x) = pair_kind c x.
  Proof.
    intros c [|d x] H; [|reflexivity]. unfold pair_kind. cbn [app]. destruct (char_eqb c c_nl); [reflexivity|].
    destruct (char_eqb c c_cr) eqn:E; [exfalso; apply char_eqb_eq in E; subst c; apply (H []); reflexivity|]. cbn [andb].
    replace (char_eqb c_nl c_percent) with false by reflexivity. replace (char_eqb c_nl c_rcurly) with false by reflexivity. rewrite !andb_false_r. reflexivity.
  Qed.
  Lemma lit_glue : forall x, no_cr x -> lit_run (glue x) = (fst (lit_run x), glue (snd (lit_run x))).
  Proof.
    induction x as [|c x IH]; intros H; [reflexivity|]. cbn [app lit_run]. unfold stops_literal. rewrite (pair_glue c x H).
    destruct (is_some (pair_kind c x) || char_eqb c c_bslash || is_some (run_kind c) && negb (char_eqb c c_space) || is_some (single_kind c)); [reflexivity|].
    rewrite IH by (apply (no_cr_tail [c]); exact H). destruct (lit_run x) as [a b]. reflexivity.
  Qed.
  Lemma run_glue : forall c x, c <> c_nl -> char_run c (glue x) = (fst (char_run c x), glue (snd (char_run c x))).
  Proof.
    intros c x N. induction x as [|d x IH]; cbn [app char_run].
    - destruct (char_eqb c_nl c) eqn:E; [apply char_eqb_eq in E; congruence|reflexivity].
    - destruct (char_eqb d c); [|reflexivity]. rewrite IH. destruct (char_run c x) as [a b]. reflexivity.
  Qed.
  Lemma scan_glue : forall x p r, no_cr x -> scan_one x = Some (p, r) -> scan_one (glue x) = Some (p, glue r).
  Proof.
    intros [|c x] p r H E; [discriminate|]. unfold scan_one in *. cbn [app]. rewrite (pair_glue c x H).
    assert (Hx : no_cr x) by (apply (no_cr_tail [c]); exact H).
    destruct (pair_kind c x) as [[k t]|] eqn:PK.
    - injection E as <- <-. f_equal. f_equal. unfold pair_kind in PK. destruct (char_eqb c c_nl); [injection PK as <- <-; reflexivity|]. destruct x as [|d x]; [discriminate|].
      destruct (char_eqb c c_cr && char_eqb d c_nl); [injection PK as <- <-; reflexivity|].
      destruct (char_eqb c c_lcurly && char_eqb d c_percent); [injection PK as <- <-; reflexivity|].
      destruct (char_eqb c c_percent && char_eqb d c_rcurly); [injection PK as <- <-; reflexivity|discriminate].
    - destruct (char_eqb c c_bslash).
      { destruct x as [|d x]; [discriminate|]. cbn [app]. rewrite (lit_glue x (no_cr_tail [d] x Hx)). destruct (lit_run x). injection E as <- <-. reflexivity. }
      destruct (run_kind c) as [k|] eqn:RK.
      { rewrite (run_glue c x). { destruct (char_run c x). injection E as <- <-. reflexivity. } intros ->. discriminate RK. }
      destruct (single_kind c) as [k|]; [injection E as <- <-; reflexivity|]. rewrite (lit_glue x Hx). destruct (lit_run x). injection E as <- <-. reflexivity.
  Qed.
  Lemma raw_glue : forall x, no_cr x -> dangling x = false -> raw_pieces (glue x) = raw_pieces x ++ raw_pieces (c_nl :: y).
  Proof.
    intros x. remember (length x) as n eqn:En. assert (Hn : length x <= n) by lia. clear En. revert x Hn.
    induction n as [|n IH]; intros x Hn H D; [destruct x; [reflexivity|cbn in Hn; lia]|].
    destruct x as [|c x]; [reflexivity|]. rewrite raw_unfold. rewrite (raw_unfold (c :: x)).
    destruct (scan_one (c :: x)) as [[p r]|] eqn:E.
    - rewrite (scan_glue _ _ _ H E). cbn [app]. f_equal. pose proof (scan_one_app _ _ _ E) as [Ex _]. pose proof (scan_one_len _ _ _ E) as Lr. apply IH; [lia| |].
      + rewrite Ex in H. apply no_cr_tail in H. exact H.
      + rewrite Ex in D. rewrite (dangling_piece p r (scan_one_ok _ _ _ E)) in D. exact D.
    - exfalso. unfold scan_one in E. destruct (pair_kind c x) as [[k t]|] eqn:PK; [discriminate|]. destruct (char_eqb c c_bslash) eqn:B.
      + apply char_eqb_eq in B. subst c. destruct x as [|d x]; [discriminate D|]. destruct (lit_run x); discriminate.
      + destruct (run_kind c); [destruct (char_run c x); discriminate|]. destruct (single_kind c); [discriminate|]. destruct (lit_run x); discriminate.
  Qed.
End Glue.

Definition eol_piece : piece := mk_piece Eol [c_nl] false.
Definition blank_piece : piece := mk_piece Terminator blank false.
Lemma raw_nl : forall y, raw_pieces (c_nl :: y) = eol_piece :: raw_pieces y.
Proof. intros y. rewrite raw_unfold. reflexivity. Qed.

Definition last_eol (l : list piece) : Prop := exists a p, l = a ++ [p] /\ p_kind p = Eol.
Lemma merge_glue : forall l r, ~ last_eol l -> merge (l ++ eol_piece :: eol_piece :: r) = merge l ++ blank_piece :: merge r.
Proof.
  intros l r. remember (length l) as n eqn:En. assert (Hn : length l <= n) by lia. clear En. revert l Hn.
  induction n as [|n IH]; intros l Hn H; [destruct l; [reflexivity|cbn in Hn; lia]|]. destruct l as [|p [|q l]]; [reflexivity| |].
  - cbn [app merge]. destruct (kind_eqb (p_kind p) Eol) eqn:E; [exfalso; apply H; exists [], p; split; [reflexivity|apply kind_eqb_eq; exact E]|]. reflexivity.
  - cbn [app]. cbn [merge]. destruct (kind_eqb (p_kind p) Eol && kind_eqb (p_kind q) Eol) eqn:E.
    + cbn [app]. f_equal. apply IH; [cbn in Hn; lia|]. intros (a & z & -> & K). apply H. exists (p :: q :: a), z. auto.
    + cbn [app]. f_equal. refine (IH (q :: l) _ _); [cbn in *; lia|].
      intros (a & z & E2 & K). apply H. exists (p :: a), z. rewrite E2. auto.
Qed.

Lemma pieces_glue : forall a b, ends_clean a -> pieces (a ++ blank ++ b) = pieces a ++ blank_piece :: pieces b.
Proof.
  intros a b [D C]. unfold pieces, blank. cbn [app].
  assert (NC : no_cr a) by (intros x E; destruct (C x c_cr E); congruence).
  rewrite (raw_glue (c_nl :: b) a NC D), !raw_nl. apply merge_glue. intros (l & p & E & K).
  destruct (raw_src a) as (tl & Ea & Tl). pose proof (raw_all_ok a) as O. rewrite E in Ea, O.
  assert (Tn : tl = []).
  { destruct Tl as [T|T]; [exact T|]. rewrite Ea, (dangling_pieces _ tl O), T in D. discriminate. }
  apply Forall_app in O. destruct O as [_ O]. apply Forall_inv in O. destruct O as [Kt Es]. rewrite K in Kt. cbn in Kt. rewrite flat_map_app in Ea. cbn [flat_map] in Ea. rewrite Tn, !app_nil_r in Ea. unfold p_src at 2 in Ea.
  assert (p_esc p = false) as F by (destruct (p_esc p); [rewrite (Es eq_refl) in K; discriminate|reflexivity]). rewrite F in Ea. cbn [app] in Ea.
  destruct Kt as [X|X]; rewrite X in Ea; [destruct (C _ _ Ea); congruence|]. (replace (flat_map p_src l ++ [c_cr; c_nl]) with ((flat_map p_src l ++ [c_cr]) ++ [c_nl]) in Ea by (rewrite <- app_assoc; reflexivity)).
  destruct (C _ _ Ea). congruence.
Qed.

(** Texts and shapes of annotated pieces. *)
Lemma annotate_shift : forall ps o o' col r r', Forall2 alike (annotate o col r ps) (annotate o' col r' ps).
Proof.
  induction ps as [|p ps IH]; intros o o' col r r'; [constructor|]. cbn [annotate]. constructor; [|apply IH].
  split; [reflexivity|]. split; [reflexivity|]. intros _. unfold tlen. cbn. lia.
Qed.
Lemma tokens_text : forall s, Forall2 (fun t p => ttext s t = p_text p) (spec_tokens s) (pieces s).
Proof.
  intros s. pose proof (annotate_length (pieces s) 0 0 0) as L. fold (spec_tokens s) in L.
  assert (H : forall i t p, nth_error (spec_tokens s) i = Some t -> nth_error (pieces s) i = Some p -> ttext s t = p_text p).
  { intros i t p Ht Hp. destruct (token_text_piece s _ i t (lex_correct s) Ht) as (q & Hq & T & _). unfold ttext. unfold token_text in T. rewrite T. congruence. }
  revert L H. generalize (spec_tokens s), (pieces s). intros l. induction l as [|t l IH]; intros [|p l'] L H; try discriminate; constructor.
  - apply (H 0); reflexivity.
  - apply IH; [cbn in L; congruence|]. intros i u q Hu Hq. apply (H (S i)); assumption.
Qed.
Lemma forall2_comp : forall A B (P : A -> B -> Prop) (Q : A -> A -> Prop) (a b : list A) c, (forall x y z, P x z -> P y z -> Q x y) ->
  Forall2 P a c -> Forall2 P b c -> Forall2 Q a b.
Proof. intros A B P Q a b c H F. revert b. induction F as [|x z a c X F IH]; intros b G; inversion G; subst; constructor; eauto. Qed.

Lemma tokens_glue : forall a b, ends_clean a -> exists T B, spec_tokens (a ++ blank ++ b) = spec_tokens a ++ T :: B /\ is_terminator T = true
  /\ Forall2 alike (spec_tokens b) B /\ Forall2 (same_text b (a ++ blank ++ b)) (spec_tokens b) B /\ Forall2 (same_text a (a ++ blank ++ b)) (spec_tokens a) (spec_tokens a).
Proof.
  intros a b C. unfold spec_tokens at 1. rewrite (pieces_glue a b C). destruct (annotate_app (pieces a) (blank_piece :: pieces b) 0 0 0) as (o & col & r & E & _).
  fold (spec_tokens a) in E. cbn [annotate] in E. cbn [blank_piece p_kind p_esc p_text kind_rows Nat.eqb] in E.
  exists (mk_token Terminator (o + 0) (o + 0 + byte_len blank) (mk_pos (o + 0) col r) false).
  exists (annotate (o + 0 + byte_len blank) 0 (r + 2) (pieces b)). split; [exact E|]. split; [reflexivity|]. split; [apply annotate_shift|].
  pose proof (tokens_text (a ++ blank ++ b)) as W. unfold spec_tokens in W. rewrite (pieces_glue a b C), E in W. fold (spec_tokens a) in W.
  assert (X : Forall2 (fun t p => ttext (a ++ blank ++ b) t = p_text p) (spec_tokens a) (pieces a)
    /\ Forall2 (fun t p => ttext (a ++ blank ++ b) t = p_text p) (annotate (o + 0 + byte_len blank) 0 (r + 2) (pieces b)) (pieces b)).
  { assert (G : forall A B (P : A -> B -> Prop) x u y v, length x = length y -> Forall2 P (x ++ u) (y ++ v) -> Forall2 P x y /\ Forall2 P u v).
    { intros A B P x. induction x as [|h x IH]; intros u [|h' y] v L F; try discriminate; [split; [constructor|exact F]|]. cbn in *. inversion F; subst.
      destruct (IH u y v) as [X Y]; [congruence|assumption|]. split; [constructor; assumption|exact Y]. }
    apply G in W; [|apply annotate_length]. destruct W as [W1 W2]. split; [exact W1|]. inversion W2; assumption. }
  destruct X as [X1 X2]. split.
  - unfold same_text. assert (Q : forall (l m : list token) ps, Forall2 (fun t p => ttext b t = p_text p) l ps -> Forall2 (fun t p => ttext (a ++ blank ++ b) t = p_text p) m ps ->
      Forall2 (fun t u => ttext b t = ttext (a ++ blank ++ b) u) l m).
    { intros l m ps F. revert m. induction F as [|x p l ps Hx F IH]; intros m G; inversion G; subst; constructor; [congruence|auto]. }
    eapply Q; [apply tokens_text|exact X2].
  - unfold same_text. assert (Q : forall (l m : list token) ps, Forall2 (fun t p => ttext a t = p_text p) l ps -> Forall2 (fun t p => ttext (a ++ blank ++ b) t = p_text p) m ps ->
      Forall2 (fun t u => ttext a t = ttext (a ++ blank ++ b) u) l m).
    { intros l m ps F. revert m. induction F as [|x p l ps Hx F IH]; intros m G; inversion G; subst; constructor; [congruence|auto]. }
    eapply Q; [apply tokens_text|exact X1].
Qed.

(** ** Documents *)

Lemma twins_refl : forall t, twins t t.
Proof.
  assert (R : forall l, Forall2 alike l l) by (intros l; induction l; constructor; auto; repeat split; auto).
  induction t as [ts|ts|n o k c IH] using tree_ind'; constructor; try apply R. clear -IH. induction IH; constructor; assumption.
Qed.
Lemma text_forall : forall s s' ts us, Forall2 (same_text s s') ts us -> forall vs ws, flips ts vs -> flips us ws -> Forall2 (same_text s s') vs ws.
Proof.
  intros s s' ts us F. induction F as [|t u ts us H F IH]; intros vs ws A B; inversion A; subst; inversion B; subst; constructor; auto.
  unfold same_text in *. assert (X : forall x v w, flip v w -> ttext x w = ttext x v) by (intros x v w G; unfold ttext; destruct (flip_slice _ _ G) as (-> & -> & _); reflexivity).
  rewrite (X s t y), (X s' u y0) by assumption. exact H.
Qed.
Lemma vtok_linked : forall s ts, linked s ts -> vtok s ts.
Proof. intros s ts [F _]. apply Forall_forall. intros t It. rewrite Forall_forall in F. destruct (F t It) as (y & Hy & _). eauto. Qed.
Lemma doc_flips : forall s n st ts k r, 3 * length ts < n -> vtok s ts -> fdoc n st ts = (k, r) -> flips ts (yields k ++ r) /\ stopped st r = true.
Proof.
  intros s n st ts k r Hn V E. destruct (docs_ok (S (3 * length ts)) n) as [D _]. specialize (D s [] ts st [] ltac:(lia) Hn V). unfold doc_ok in D. rewrite E in D.
  destruct D as (D1 & D2 & _). auto.
Qed.

(** The whole parse: metadata and document. *)
Lemma document_parts : forall s k1 r1 k2 r2, opt_tree (fmetadata [] (spec_tokens s)) (spec_tokens s) = (k1, r1) -> fdoc (3 * length r1 + 5) [] r1 = (k2, r2) ->
  document_of s = mk_yamd (option_map (trim_both c_nl) (child_text s NMetadata k1)) (flat_map (blocks s) k2).
Proof.
  intros s k1 r1 k2 r2 E1 E2. unfold document_of, fparse. rewrite E1, E2.
  assert (M : k1 = [] \/ exists o k c, k1 = [Node NMetadata o k c]).
  { unfold fmetadata, fdelim in E1. destruct (spec_tokens s) as [|t ts]; [injection E1 as <- <-; auto|]. destruct (is_three_dashes t); [|injection E1 as <- <-; auto].
    destruct (until [] is_three_dashes ts) as [[[b c] rest]|]; injection E1 as <- <-; eauto. }
  unfold doc_of, body_of. destruct M as [->|(o & k & c & ->)]; cbn; rewrite app_nil_r; reflexivity.
Qed.

(** Dashes that do not begin metadata begin a paragraph. *)
Lemma dashes_open : forall s t r k q n, tok_ok s t -> is_three_dashes t = true -> fdoc (S (S n)) [] (t :: r) = (k, q) ->
  exists x b y, flat_map (blocks s) k = YParagraph (PText (s_ "---" ++ x) :: b) :: y.
Proof.
  intros s t r k q n T H E. assert (S0 : stopped [] (t :: r) = false) by reflexivity.
  assert (O : opener t) by (unfold opener; tauto). destruct (opener_simple [] t r O S0) as (b & k0 & rest & ES).
  assert (X : kind t = Minus /\ tlen t = 3).
  { unfold is_three_dashes in H. apply andb_true_iff in H. destruct H as [H H2]. apply andb_true_iff in H. destruct H as [H1 _]. apply kind_eqb_eq in H1. apply Nat.eqb_eq in H2. auto. }
  destruct X as [X1 X2]. remember (S n) as m eqn:Em. cbn [fdoc] in E. rewrite S0 in E.
  assert (E1 : is_terminator t = false) by (unfold is_terminator; rewrite X1; reflexivity).
  assert (E2 : fcode [] (t :: r) = None) by (unfold fcode, ffence; cbn [fseq]; unfold is_backtick3; rewrite X1; reflexivity).
  assert (E3 : fcollapsible m [] (t :: r) = CFail (t :: r)) by (subst m; cbn [fcollapsible fseq]; unfold is_collapsible_start; rewrite X1; reflexivity).
  assert (E4 : forelse fembed fhighlight [] (t :: r) = None).
  { unfold forelse. cbn [fembed]. unfold is_left_curly2. rewrite X1. cbn [kind_eqb andb]. unfold fhighlight. cbn [fseq]. unfold is_two_bangs. rewrite X1. reflexivity. }
  rewrite E1, E2, E3, E4, ES in E. destruct (fdoc m [] rest) as [k2 r2]. injection E as <- <-. cbn [flat_map blocks pars_of par_of app]. unfold ttexts. cbn [flat_map].
  rewrite (run_text_at s t Minus c_minus T X1 eq_refl), X2. exists (flat_map (ttext s) b), (flat_map (par_of s) k0), (flat_map (blocks s) k2). reflexivity.
Qed.

Lemma metadata_none : forall s, metadata (document_of s) = None -> fmetadata [] (spec_tokens s) = None.
Proof.
  intros s H. destruct (opt_tree (fmetadata [] (spec_tokens s)) (spec_tokens s)) as [k1 r1] eqn:E1. destruct (fdoc (3 * length r1 + 5) [] r1) as [k2 r2] eqn:E2.
  rewrite (document_parts s _ _ _ _ E1 E2) in H. cbn in H. unfold fmetadata, fdelim in *. destruct (spec_tokens s) as [|t ts]; [reflexivity|]. destruct (is_three_dashes t); [|reflexivity].
  destruct (until [] is_three_dashes ts) as [[[b c] rest]|]; [|reflexivity]. injection E1 as <- <-. discriminate H.
Qed.

Theorem parts_read_alone : forall a b ya yb, ends_clean a -> deserialize a = Ok ya -> deserialize b = Ok yb -> closed ya = true -> metadata yb = None ->
  deserialize (a ++ blank ++ b) = Ok (mk_yamd (metadata ya) (body ya ++ body yb)).
Proof.
  intros a b ya yb C Ha Hb Cl Mb. rewrite deserialize_eq in *. injection Ha as <-. injection Hb as <-. f_equal.
  destruct (tokens_glue a b C) as (T & B & EW & HT & AB & SB & SA). set (W := a ++ blank ++ b) in *.
  pose proof (spec_linked a) as LA. pose proof (spec_linked b) as LB. pose proof (spec_linked W) as LW.
  set (Z := T :: B) in *. assert (HZ : Z = [] \/ nth_is 0 is_terminator Z = true) by (right; exact HT).
  destruct (opt_tree (fmetadata [] (spec_tokens a)) (spec_tokens a)) as [k1 r1] eqn:E1. destruct (fdoc (3 * length r1 + 5) [] r1) as [k r] eqn:E2.
  pose proof (document_parts a _ _ _ _ E1 E2) as DA. rewrite DA in *. cbn [metadata body] in *.
  pose proof (opt_tree_app fmetadata [] _ _ _ (covers_delim _ _ _) E1) as EA.
  assert (L1 : linked a r1) by (rewrite EA in LA; apply linked_app in LA; apply LA).
  destruct (doc_flips a (3 * length r1 + 5) [] r1 k r ltac:(lia) (vtok_linked a r1 L1) E2) as [_ Sr]. assert (Er : r = []) by (destruct r; [reflexivity|discriminate Sr]). subst r.
  unfold closed in Cl. cbn [metadata body] in Cl. apply andb_true_iff in Cl. destruct Cl as [Cl Cm].
  (* metadata *)
  assert (E1W : opt_tree (fmetadata [] (spec_tokens a ++ Z)) (spec_tokens a ++ Z) = (k1, r1 ++ Z)).
  { destruct (fmetadata [] (spec_tokens a)) as [[x q]|] eqn:FM.
    - injection E1 as <- <-. unfold fmetadata, fdelim in *. destruct (spec_tokens a) as [|t ts]; [discriminate|]. cbn [app]. destruct (is_three_dashes t); [|discriminate].
      destruct (until [] is_three_dashes ts) as [[[b0 c0] rest]|] eqn:U; [|discriminate]. rewrite (until_more Z HZ _ _ _ _ _ _ U). injection FM as <- <-. reflexivity.
    - injection E1 as <- <-. destruct (spec_tokens a) as [|t ts].
      + cbn [app]. unfold Z, fmetadata, fdelim. unfold is_terminator in HT. apply kind_eqb_eq in HT. unfold is_three_dashes. rewrite HT. reflexivity.
      + unfold fmetadata, fdelim. cbn [app]. destruct (is_three_dashes t) eqn:TD; [|reflexivity]. exfalso.
        assert (T0 : tok_ok a t) by (destruct LA as [F _]; inversion F; assumption).
        replace (3 * length (t :: ts) + 5) with (S (S (3 * length (t :: ts) + 3))) in E2 by lia.
        destruct (dashes_open a t ts k [] _ T0 TD E2) as (x & b0 & y & EB). rewrite EB in Cm. cbn in Cm. discriminate. }
  (* the first part *)
  destruct (docs_more Z HZ a (3 * length r1 + 5)) as [DM _].
  destruct (DM (3 * length (r1 ++ Z) + 5) [] r1 k [] ltac:(lia) ltac:(lia) L1 E2 Cl) as (Ey & _ & F3). destruct (F3 eq_refl) as (m' & Hm' & EF). clear DM F3.
  (* the second part *)
  assert (EB : fmetadata [] (spec_tokens b) = None) by (apply metadata_none; exact Mb).
  assert (E1B : opt_tree (fmetadata [] (spec_tokens b)) (spec_tokens b) = ([], spec_tokens b)) by (rewrite EB; reflexivity).
  destruct (fdoc (3 * length (spec_tokens b) + 5) [] (spec_tokens b)) as [kb rb] eqn:E2B. rewrite (document_parts b _ _ _ _ E1B E2B). cbn [body].
  destruct (doc_flips b (3 * length (spec_tokens b) + 5) [] (spec_tokens b) kb rb ltac:(lia) (vtok_linked b _ LB) E2B) as [FB Sb]. assert (Er : rb = []) by (destruct rb; [reflexivity|discriminate Sb]). subst rb.
  destruct m' as [|m']; [lia|]. unfold Z in Hm'. cbn [length] in Hm'. pose proof (alikes_len _ _ AB) as LAB.
  assert (EFB : fdoc m' [] (spec_tokens b) = (kb, [])).
  { rewrite <- E2B. destruct (docs_fuel m') as [DF _]. apply (DF b); [lia|lia|apply vtok_linked; exact LB]. }
  pose proof (proj1 (docs_rel m') [] _ _ AB) as TR. rewrite EFB in TR. destruct (fdoc m' [] B) as [kB rB] eqn:EB2. destruct TR as [TR _]. cbn [fst snd] in TR.
  assert (VB : vtok W B).
  { rewrite EW in LW. apply linked_app in LW. destruct LW as [_ LW]. apply vtok_linked in LW. inversion LW; assumption. }
  destruct (doc_flips W m' [] B kB rB ltac:(lia) VB EB2) as [FB2 Sb2]. assert (Er : rB = []) by (destruct rB; [reflexivity|discriminate Sb2]). subst rB.
  rewrite app_nil_r in FB, FB2.
  assert (SameB : Forall2 (same b W) kb kB) by (apply twins_sames; [exact TR|]; eapply text_forall; eassumption).
  assert (SameA : Forall2 (same a W) (k1 ++ k) (k1 ++ k)).
  { apply twins_sames; [induction (k1 ++ k); constructor; auto using twins_refl|]. rewrite EA, Ey, app_nil_r in SA. rewrite yields_app. exact SA. }
  apply forall2_split in SameA; [|reflexivity]. destruct SameA as [SK1 SK].
  (* together *)
  assert (EFZ : fdoc (S m') [] Z = (Leaf [T] :: kB, [])).
  { unfold Z. cbn [fdoc]. change (stopped [] (T :: B)) with false. rewrite HT, EB2. reflexivity. }
  rewrite EFZ in EF. cbn [fst snd] in EF. rewrite <- EW in E1W. rewrite (document_parts W _ _ _ _ E1W EF).
  rewrite <- (same_child a W NMetadata _ _ SK1). f_equal. rewrite flat_map_app. cbn [flat_map blocks app]. rewrite <- (same_blocks a W _ _ SK), <- (same_blocks b W _ _ SameB). reflexivity.
Qed.

Corollary parts_read : forall parts ys,
  Forall2 (fun a y => deserialize a = Ok y /\ ends_clean a /\ closed y = true) parts ys -> Forall (fun y => metadata y = None) (tl ys) ->
  deserialize (join_blank parts) = Ok (mk_yamd (match ys with y :: _ => metadata y | [] => None end) (flat_map body ys)).
Proof.
  intros parts ys F. induction F as [|a y parts ys (D & E & C) F IH]; intros M; [reflexivity|]. cbn [tl] in M.
  destruct parts as [|a' parts].
  - inversion F. subst. cbn [join_blank flat_map]. rewrite D, app_nil_r. destruct y. reflexivity.
  - destruct ys as [|y' ys]; [inversion F|]. inversion M as [|? ? M1 M2]. subst. specialize (IH M2). cbn [join_blank]. change (match parts with [] => a' | _ :: _ => a' ++ blank ++ join_blank parts end) with (join_blank (a' :: parts)).
    rewrite (parts_read_alone a _ y _ E D IH C M1). cbn [metadata body flat_map]. reflexivity.
Qed.
Corollary leading_blank : forall b y, deserialize b = Ok y -> metadata y = None -> deserialize (blank ++ b) = Ok y.
Proof.
  intros b y H M. rewrite (parts_read_alone [] b (mk_yamd None []) y : _ -> _ -> _ -> _ -> _ -> deserialize (blank ++ b) = _); try reflexivity; try assumption.
  - cbn. rewrite <- M. destruct y. reflexivity.
  - split; [reflexivity|]. intros x c E. destruct x; discriminate.
Qed.
