(** Documents of sources with Windows line endings. *)
From Coq Require Import String.
From Verif Require Import Base Lexer LexSpec LexProofs LexFacts Ops Parser FParser Refine3 TokFacts StreamProofs Ast ToYamd Api ShapeSpec Shapes Swap SwapAst WinSpec.
Open Scope list_scope.

Definition win (c : char) : str := if char_eqb c c_nl then [c_cr; c_nl] else [c].
Notation G := (flat_map win).
Definition dos (x : str) : Prop := ~ In c_cr x.

(** ** Trimming *)

Lemma win_other : forall c, char_eqb c c_nl = false -> win c = [c].
Proof. intros c H. unfold win. rewrite H. reflexivity. Qed.
Lemma win_eq : forall c, win c = if char_eqb c c_nl then [c_cr; c_nl] else [c]. Proof. reflexivity. Qed.
Lemma dos_app : forall a b, dos (a ++ b) -> dos a /\ dos b.
Proof. intros a b H. split; intros X; apply H, in_or_app; auto. Qed.
Lemma G_snoc : forall x c, G (x ++ [c]) = G x ++ win c.
Proof. intros x c. rewrite flat_map_app. cbn [flat_map]. rewrite app_nil_r. reflexivity. Qed.
Lemma eqb_sym : forall c d, char_eqb c d = char_eqb d c.
Proof. intros c d. apply N.eqb_sym. Qed.
Lemma not_cr : forall x c, dos (x ++ [c]) -> char_eqb c c_cr = false.
Proof. intros x c H. destruct (char_eqb c c_cr) eqn:E; [|reflexivity]. exfalso. apply char_eqb_eq in E. subst c. apply H, in_or_app. right. left. reflexivity. Qed.
Lemma back_G : forall x, dos x -> rev (drop_back (rev (G x))) = G (trim_end c_nl x).
Proof.
  induction x as [|c x IH] using rev_ind; intros D; [reflexivity|]. destruct (dos_app _ _ D) as [D1 _]. rewrite trim_end_snoc, G_snoc, rev_app_distr, (win_eq c). rewrite (eqb_sym c_nl c). destruct (char_eqb c c_nl) eqn:E.
  - cbn [rev app]. change (drop_back (c_nl :: c_cr :: rev (G x))) with (drop_back (rev (G x))). apply IH. exact D1.
  - rewrite G_snoc, win_other by exact E. cbn [rev app].
    assert (X : drop_back (c :: rev (G x)) = c :: rev (G x)) by (cbn [drop_back]; destruct (rev (G x)); [reflexivity|rewrite E; reflexivity]). rewrite X. cbn [rev]. rewrite rev_involutive. reflexivity.
Qed.
Lemma strip_snoc : forall x c, strip_end (x ++ [c]) = if char_eqb c c_cr then rev (drop_back (rev x)) else x ++ [c].
Proof. intros x c. unfold strip_end. rewrite rev_app_distr. cbn [rev app]. reflexivity. Qed.
Lemma ends_snoc : forall x c, ends_cr (x ++ [c]) = char_eqb c c_cr.
Proof. intros x c. unfold ends_cr. rewrite rev_app_distr. reflexivity. Qed.
Lemma ends_G : forall x, dos x -> ends_cr (G x) = false.
Proof.
  intros x D. destruct x as [|c x _] using rev_ind; [reflexivity|]. rewrite G_snoc, (win_eq c). destruct (char_eqb c c_nl); [change [c_cr; c_nl] with ([c_cr] ++ [c_nl]); rewrite app_assoc, ends_snoc; reflexivity|].
  rewrite ends_snoc. exact (not_cr _ _ D).
Qed.
Lemma strip_trim : forall x, dos x -> strip_end (trim_end c_nl (G x)) = G (trim_end c_nl x).
Proof.
  intros x D. destruct x as [|c x _] using rev_ind; [reflexivity|]. destruct (dos_app _ _ D) as [D1 _]. rewrite trim_end_snoc, G_snoc, (win_eq c). rewrite (eqb_sym c_nl c). destruct (char_eqb c c_nl) eqn:E.
  - change [c_cr; c_nl] with ([c_cr] ++ [c_nl]). rewrite app_assoc, trim_end_snoc. change (char_eqb c_nl c_nl) with true. cbn match. rewrite trim_end_snoc. change (char_eqb c_nl c_cr) with false. cbn match.
    rewrite strip_snoc. change (char_eqb c_cr c_cr) with true. cbn match. apply back_G. exact D1.
  - rewrite trim_end_snoc, eqb_sym, E, strip_snoc, (not_cr _ _ D), G_snoc, win_other by exact E. reflexivity.
Qed.
Lemma strip_keep : forall x, ends_cr x = false -> strip_end x = x.
Proof. intros x H. destruct x as [|c x _] using rev_ind; [reflexivity|]. rewrite ends_snoc in H. rewrite strip_snoc, H. reflexivity. Qed.
Lemma win_nil : forall x, G x = [] -> x = [].
Proof. intros [|c x] H; [reflexivity|]. cbn [flat_map] in H. unfold win in H. destruct (char_eqb c c_nl); discriminate. Qed.

Definition text_dos (p : par_node) : Prop := match p with PText t => dos t | _ => True end.
Lemma pars_keep : forall b, Forall text_dos b -> strip_pars (map (reword_par win) b) = map (reword_par win) b.
Proof.
  intros b F. destruct b as [|p b _] using rev_ind; [reflexivity|]. apply Forall_app in F. destruct F as [_ F]. inversion F as [|? ? Fp _]; subst. unfold strip_pars. rewrite map_app, rev_app_distr. cbn [map rev app]. destruct p; try reflexivity.
  cbn [reword_par]. unfold reword. rewrite (ends_G _ Fp). reflexivity.
Qed.
Lemma strip_pars_trim : forall b, Forall text_dos b -> strip_pars (trim_trailing_newline_from_text (map (reword_par win) b)) = map (reword_par win) (trim_trailing_newline_from_text b).
Proof.
  intros b F. destruct b as [|p b _] using rev_ind; [reflexivity|]. pose proof F as F0. apply Forall_app in F. destruct F as [Fb F]. inversion F as [|? ? Fp _]; subst. clear F. unfold trim_trailing_newline_from_text. rewrite map_app, !rev_app_distr. cbn [map rev app].
  assert (K : strip_pars (map (reword_par win) (b ++ [p])) = map (reword_par win) (b ++ [p])) by (apply pars_keep; exact F0).
  destruct p as [t u|l|x|x|x|x|x]; try (rewrite map_app in K; exact K || (rewrite map_app; exact K)).
  rewrite !rev_involutive. cbn [reword_par]. unfold reword. pose proof (strip_trim x Fp) as S. destruct (trim_end c_nl (G x)) as [|d y] eqn:E.
  - cbn [strip_end rev] in S. destruct (trim_end c_nl x); [|symmetry in S; apply win_nil in S; discriminate]. apply pars_keep. exact Fb.
  - unfold strip_pars at 1. rewrite rev_app_distr. cbn [rev app]. destruct (ends_cr (d :: y)) eqn:Ec.
    + rewrite S. rewrite !rev_involutive. destruct (trim_end c_nl x) as [|c z]; [reflexivity|]. destruct (G (c :: z)) eqn:Eg; [apply win_nil in Eg; discriminate|]. rewrite map_app. cbn [map reword_par]. unfold reword. rewrite Eg. reflexivity.
    + rewrite (strip_keep _ Ec) in S. destruct (trim_end c_nl x) as [|c z]; [discriminate S|]. rewrite map_app. cbn [map reword_par]. unfold reword. rewrite <- S. reflexivity.
Qed.

(** Metadata is trimmed at both ends, but the first line ending is a carriage return. *)
Lemma start_G : forall x, trim_start c_nl (G x) = G x.
Proof. intros [|c x]; [reflexivity|]. cbn [flat_map]. rewrite (win_eq c). destruct (char_eqb c c_nl) eqn:E; [reflexivity|]. cbn [app trim_start]. rewrite eqb_sym, E. reflexivity. Qed.
Lemma front_G : forall x, dos x -> drop_front (G x) = G (trim_start c_nl x).
Proof.
  induction x as [|c x IH]; intros D; [reflexivity|]. cbn [flat_map trim_start]. rewrite (eqb_sym c_nl c). rewrite (win_eq c). destruct (char_eqb c c_nl) eqn:E.
  - cbn [app]. change (drop_front (c_cr :: c_nl :: G x)) with (drop_front (G x)). apply IH. intros X. apply D. right. exact X.
  - cbn [flat_map]. rewrite win_other by exact E. cbn [app drop_front]. destruct (G x); [reflexivity|]. replace (char_eqb c c_cr) with false; [reflexivity|]. symmetry. destruct (char_eqb c c_cr) eqn:X; [|reflexivity]. exfalso. apply char_eqb_eq in X. apply D. left. exact X.
Qed.
Lemma trim_end_cons : forall c x, trim_end c_nl (c :: x) = match trim_end c_nl x with [] => if char_eqb c_nl c then [] else [c] | y => c :: y end.
Proof.
  intros c x. induction x as [|d x IH] using rev_ind; [unfold trim_end; cbn [rev app trim_start]; destruct (char_eqb c_nl c); reflexivity|].
  change (c :: x ++ [d]) with ((c :: x) ++ [d]). rewrite !trim_end_snoc. destruct (char_eqb c_nl d); [exact IH|]. destruct x; reflexivity.
Qed.
Lemma trim_swap : forall x, trim_start c_nl (trim_end c_nl x) = trim_end c_nl (trim_start c_nl x).
Proof.
  induction x as [|c x IH]; [reflexivity|]. rewrite trim_end_cons. cbn [trim_start]. destruct (char_eqb c_nl c) eqn:E.
  - rewrite <- IH. destruct (trim_end c_nl x); [reflexivity|]. cbn [trim_start]. rewrite E. reflexivity.
  - rewrite trim_end_cons, E. destruct (trim_end c_nl x); cbn [trim_start]; rewrite E; reflexivity.
Qed.
Lemma trim_end_twice : forall x, trim_end c_nl (trim_end c_nl x) = trim_end c_nl x.
Proof. induction x as [|c x IH] using rev_ind; [reflexivity|]. rewrite trim_end_snoc. destruct (char_eqb c_nl c) eqn:E; [exact IH|]. rewrite trim_end_snoc, E. reflexivity. Qed.
Lemma trim_start_twice : forall x, trim_start c_nl (trim_start c_nl x) = trim_start c_nl x.
Proof. induction x as [|c x IH]; [reflexivity|]. cbn [trim_start]. destruct (char_eqb c_nl c) eqn:E; [exact IH|]. cbn [trim_start]. rewrite E. reflexivity. Qed.
Lemma trim_both_twice : forall x, trim_both c_nl (trim_both c_nl x) = trim_both c_nl x.
Proof. intros x. unfold trim_both. rewrite trim_swap, trim_start_twice, trim_end_twice. reflexivity. Qed.
Lemma both_G : forall x, trim_both c_nl (trim_both c_nl (G x)) = trim_end c_nl (G x).
Proof. intros x. rewrite trim_both_twice. unfold trim_both. rewrite start_G. reflexivity. Qed.
Lemma strip_both : forall x, dos x -> drop_front (strip_end (trim_end c_nl (G x))) = G (trim_both c_nl x).
Proof.
  intros x D. rewrite strip_trim by exact D. rewrite front_G; [unfold trim_both; rewrite trim_swap; reflexivity|]. intros X. apply D. clear - X. induction x as [|c x IH] using rev_ind; [exact X|]. rewrite trim_end_snoc in X. apply in_or_app. destruct (char_eqb c_nl c); [left; exact (IH X)|apply in_app_iff in X; exact X].
Qed.

(** ** Building *)

(** Finished parts of a frame, stripped. *)
Definition sframe (f : frame) : frame :=
  match f with
  | FYamd m b => FYamd (option_map (fun m => drop_front (strip_end m)) m) (map strip_node b)
  | FDocument b => FDocument (map strip_node b)
  | FHighlight t i ps => FHighlight t i (map strip_pars ps)
  | FCollapsible t b => FCollapsible t (map strip_node b)
  | FUnorderedList l its => FUnorderedList l (map strip_item its)
  | FOrderedList l its => FOrderedList l (map strip_item its)
  | FListItem t n => FListItem (strip_pars t) (option_map strip_list n)
  | f => f
  end.
Definition clean (f f' : frame) : Prop :=
  match f, f' with
  | FCode _ t, _ => dos t
  | FParagraph b, _ => Forall text_dos b
  | FMetadata t, _ => dos t
  | FYamd (Some m) _, FYamd m' _ => exists x, dos x /\ m = trim_both c_nl x /\ m' = Some (trim_both c_nl (G x))
  | _, _ => True
  end.
Definition near (f f' : frame) : Prop := sframe f' = rframe win f /\ clean f f'.
Definition res (r r' : step_result) : Prop :=
  match r with Ok (Some st) => exists st', r' = Ok (Some st') /\ Forall2 near st st' | _ => True end.

Lemma near_depth : forall st st', Forall2 near st st' -> count_list_depth st' = count_list_depth st.
Proof.
  intros st st' F. unfold count_list_depth. induction F as [|f f' st st' [E _] F IH]; [reflexivity|]. cbn [filter]. assert (X : is_list_frame f' = is_list_frame f) by (destruct f, f'; try discriminate E; reflexivity). rewrite X. destruct (is_list_frame f); cbn [List.length]; rewrite ?IH; reflexivity.
Qed.
Lemma push_node_near : forall st st' n n', strip_node n' = reword_node win n -> Forall2 near st st' -> Forall2 near (push_yamd_node st n) (push_yamd_node st' n').
Proof.
  intros st st' n n' E F. destruct F as [|f f' st st' [N C] F]; [constructor|]. destruct f, f'; try discriminate N; try (cbn [push_yamd_node]; constructor; [split; assumption|exact F]).
  cbn [push_yamd_node]. constructor; [|exact F]. split; [|exact I]. cbn [sframe rframe] in *. injection N as N. rewrite !map_app, N. cbn [map]. rewrite E. reflexivity.
Qed.
Lemma push_par_near : forall st st' n, text_dos n -> Forall2 near st st' -> Forall2 near (push_into_paragraph st n) (push_into_paragraph st' (reword_par win n)).
Proof.
  intros st st' n D F. destruct F as [|f f' st st' [N C] F]; [constructor|]. destruct f, f'; try discriminate N; try (cbn [push_into_paragraph]; constructor; [split; assumption|exact F]).
  cbn [push_into_paragraph]. constructor; [|exact F]. cbn [sframe rframe clean] in *. injection N as ->. split; [cbn [sframe rframe]; rewrite map_app; reflexivity|]. cbn [clean]. apply Forall_app. split; [exact C|]. constructor; [exact D|constructor].
Qed.
Lemma res_ok : forall st st', Forall2 near st st' -> res (ok st) (ok st').
Proof. intros st st' F. exists st'. split; [reflexivity|exact F]. Qed.
Ltac top F := destruct F as [|g g' st0 st0' [N0 C0] F0]; [first [exact I|apply res_ok; constructor]|]; destruct g, g'; try discriminate N0; try (apply res_ok; constructor; [split; assumption|assumption]).

Lemma value_G : forall i vs, value_at i (map G vs) = G (value_at i vs).
Proof. intros i vs. unfold value_at. change (@nil char) with (G []) at 1. apply map_nth. Qed.
Lemma near_list : forall st st' l l', strip_list l' = reword_list win l -> Forall2 near st st' -> res (finish_list st l) (finish_list st' l').
Proof.
  intros st st' l l' E F. assert (X : Forall2 near (push_yamd_node st (YListNode l)) (push_yamd_node st' (YListNode l'))) by (apply push_node_near; [cbn [strip_node reword_node]; rewrite E; reflexivity|exact F]).
  destruct F as [|f f' st st' [N C] F]; [exact I|]. destruct f, f'; try discriminate N; try exact (res_ok _ _ X). apply res_ok. constructor; [|exact F]. cbn [sframe rframe] in *. injection N as N _. split; [cbn [sframe rframe option_map]; rewrite N, E; reflexivity|exact I].
Qed.
Lemma near_end : forall n f f' st st', near f f' -> Forall2 near st st' -> res (step_end_frame n f st) (step_end_frame n f' st').
Proof.
  intros n f f' st st' [N C] F. destruct f, f'; try discriminate N; destruct n; try exact (res_ok _ _ F); cbn [sframe rframe clean step_end_frame] in *.
  - injection N as N. top F; cbn [sframe rframe clean] in *.
    + apply res_ok. constructor; [|exact F0]. injection N0 as N0 N1. split; [cbn [sframe rframe]; rewrite N0, !map_app, N, N1; reflexivity|exact C0].
    + apply res_ok. constructor; [|exact F0]. injection N0 as N0 _. split; [cbn [sframe rframe]; rewrite N0, N; reflexivity|exact I].
  - injection N as -> ->. apply res_ok, push_node_near; [reflexivity|exact F].
  - injection N as ->. top F; cbn [sframe rframe clean] in *; apply res_ok; (constructor; [|exact F0]).
    + injection N0 as N0. split; [|exact I]. cbn [sframe rframe]. rewrite !map_app, N0. reflexivity.
    + injection N0 as -> -> N0. split; [|exact I]. cbn [sframe rframe]. rewrite !map_app, N0. cbn [map]. rewrite strip_pars_trim by exact C. reflexivity.
    + injection N0 as _ N0. split; [|exact I]. cbn [sframe rframe]. rewrite strip_pars_trim by exact C. rewrite N0. reflexivity.
  - injection N as ->. apply res_ok. exact (push_par_near _ _ (PBold body) I F).
  - injection N as ->. top F; cbn [sframe rframe clean] in *; apply res_ok; (constructor; [|exact F0]); injection N0 as ->; (split; [cbn [sframe rframe]; rewrite map_app; reflexivity|]); [|exact I]. apply Forall_app. split; [exact C0|]. constructor; [exact I|constructor].
  - injection N as ->. top F; cbn [sframe rframe clean] in *; apply res_ok; (constructor; [|exact F0]); injection N0 as ->; (split; [cbn [sframe rframe]; rewrite map_app; reflexivity|]); [|exact I]. apply Forall_app. split; [exact C0|]. constructor; [exact I|constructor].
  - injection N as ->. apply res_ok. exact (push_par_near _ _ (PCodeSpan text) I F).
  - injection N as ->. apply res_ok. exact (push_par_near _ _ (PEmphasis text) I F).
  - injection N as -> ->. top F; cbn [sframe rframe clean] in *; apply res_ok; (constructor; [|exact F0]).
    + injection N0 as -> ->. split; [cbn [sframe rframe]; rewrite map_app; reflexivity|exact I].
    + injection N0 as ->. split; [cbn [sframe rframe]; rewrite map_app; reflexivity|]. apply Forall_app. split; [exact C0|]. constructor; [exact I|constructor].
  - injection N as ->. top F; cbn [sframe rframe clean] in *; apply res_ok; (constructor; [|exact F0]); injection N0 as -> ->; split; [reflexivity|exact I|reflexivity|exact I].
  - injection N as ->. top F; cbn [sframe rframe clean] in *; apply res_ok; (constructor; [|exact F0]); injection N0 as -> ->; split; [reflexivity|exact I|reflexivity|exact I].
  - injection N as -> ->. assert (X : Forall2 near (push_yamd_node st (YImage (mk_image alt src))) (push_yamd_node st' (YImage (mk_image (G alt) (G src))))) by (apply push_node_near; [reflexivity|exact F]).
    destruct F as [|g g' st st' [N0 C0] F]; [exact I|]; destruct g, g'; try discriminate N0; try (exact (res_ok _ _ X)). apply res_ok. constructor; [|exact F]. cbn [sframe rframe] in N0. injection N0 as ->. split; [cbn [sframe rframe]; rewrite map_app; reflexivity|exact I].
  - injection N as ->. apply res_ok, push_node_near; [reflexivity|exact F].
  - injection N as -> ->. apply res_ok, push_node_near; [|exact F]. unfold code_new. cbn [strip_node reword_node]. unfold reword. rewrite !trim_end_twice, strip_trim by exact C. reflexivity.
  - injection N as ->. top F; cbn [sframe rframe clean] in *; apply res_ok; (constructor; [|exact F0]).
    + injection N0 as _ ->. split; [reflexivity|exact C0].
    + injection N0 as _ -> N0. split; [cbn [sframe rframe]; rewrite N0; reflexivity|exact I].
    + injection N0 as _ N0. split; [cbn [sframe rframe]; rewrite N0; reflexivity|exact I].
  - injection N as ->. apply res_ok, push_node_near; [cbn [strip_node reword_node]; unfold reword; rewrite !value_G; reflexivity|exact F].
  - apply res_ok, push_node_near; [reflexivity|exact F].
  - injection N as -> -> N. apply res_ok, push_node_near; [cbn [strip_node reword_node]; rewrite N; reflexivity|exact F].
  - injection N as ->. top F; cbn [sframe rframe clean] in *. apply res_ok; (constructor; [|exact F0]). injection N0 as -> _ N0. split; [cbn [sframe rframe]; rewrite N0; reflexivity|exact I].
  - injection N as -> N. apply res_ok, push_node_near; [cbn [strip_node reword_node]; unfold reword; rewrite N; reflexivity|exact F].
  - injection N as -> N. apply near_list; [cbn [strip_list reword_list]; rewrite N; reflexivity|exact F].
  - injection N as -> N. apply near_list; [cbn [strip_list reword_list]; rewrite N; reflexivity|exact F].
  - injection N as N N1. assert (X : strip_item (YItem text0 nested_list0) = reword_item win (YItem text nested_list)) by (cbn [strip_item reword_item]; rewrite N; destruct nested_list, nested_list0; try discriminate N1; [injection N1 as ->; reflexivity|reflexivity]).
    top F; cbn [sframe rframe clean] in *; apply res_ok; (constructor; [|exact F0]); injection N0 as -> N0; (split; [cbn [sframe rframe]; rewrite !map_app, N0; cbn [map]; rewrite X; reflexivity|exact I]).
  - injection N as ->. top F; cbn [sframe rframe clean] in *; apply res_ok; (constructor; [|exact F0]). injection N0 as _ N0. split; [|exists text; auto]. cbn [sframe rframe option_map]. rewrite N0.
    replace (trim_both c_nl (G text)) with (trim_end c_nl (G text)) by (rewrite <- both_G, trim_both_twice; reflexivity). rewrite strip_both by exact C. reflexivity.
Qed.
Lemma near_value : forall s s' c c' x st st', dos x -> as_str s c = Ok x -> as_str s' c' = Ok (G x) -> Forall2 near st st' -> res (step_value s c st) (step_value s' c' st').
Proof.
  intros s s' c c' x st st' D H H' F. unfold step_value. rewrite H, H'. cbn [bind]. destruct F as [|f f' st st' [N C] F]; [exact I|]. apply res_ok. destruct f, f'; try discriminate N; try (constructor; [split; assumption|exact F]); cbn [sframe rframe clean] in *.
  all: constructor; [|exact F].
  all: split; [|try exact I]; cbn [sframe rframe clean].
  all: try (inversion N; subst; rewrite ?map_app, ?flat_map_app; reflexivity).
  - apply Forall_app. split; [exact C|]. constructor; [exact D|constructor].
  - intros X. apply in_app_iff in X. destruct X; [exact (C H0)|exact (D H0)].
  - intros X. apply in_app_iff in X. destruct X; [exact (C H0)|exact (D H0)].
Qed.
Lemma count_G : forall x, count_hashes (G x) = count_hashes x.
Proof.
  induction x as [|c x IH]; [reflexivity|]. cbn [flat_map count_hashes]. rewrite (win_eq c). destruct (char_eqb c c_nl) eqn:E.
  - apply char_eqb_eq in E. subst c. reflexivity.
  - cbn [app count_hashes]. rewrite IH. reflexivity.
Qed.
Definition win_op (s : str) (o o' : op) : Prop :=
  op_kind_of o = op_kind_of o' /\ exists x, dos x /\ as_str s (op_content o) = Ok x /\ as_str (G s) (op_content o') = Ok (G x).
Lemma near_step : forall s o o' st st', win_op s o o' -> Forall2 near st st' -> res (step s o st) (step (G s) o' st').
Proof.
  intros s o o' st st' (K & x & D & H & H') F. unfold step. rewrite <- K. destruct (op_kind_of o) as [n|n|].
  - destruct n; cbn [step_start from_node bind]; unfold extract_heading_level; rewrite ?H, ?H'; cbn [bind]; rewrite ?count_G, ?(near_depth _ _ F).
    all: apply res_ok; constructor; [|exact F]; split; [reflexivity|try exact I; cbn [clean]; try constructor; intros []].
  - unfold step_end. destruct F as [|f f' st st' N F]; [exact I|]. apply near_end; assumption.
  - eapply near_value; eassumption.
Qed.
Lemma near_run : forall s os os' st st', Forall2 (win_op s) os os' -> Forall2 near st st' -> res (run s os st) (run (G s) os' st').
Proof.
  intros s os os' st st' W. revert st st'. induction W as [|o o' os os' H W IH]; intros st st' F; [exact (res_ok _ _ F)|]. cbn [run]. pose proof (near_step _ _ _ _ _ H F) as R.
  destruct (step s o st) as [[st1|]| |]; try exact I. destruct R as (st1' & -> & F1). cbn [bind]. apply IH. exact F1.
Qed.

(** ** The texts of ops come from the source *)

Lemma token_text_in : forall s ts x c, concat_texts s ts = Ok x -> In c x -> In c s.
Proof.
  intros s ts. induction ts as [|t ts IH]; intros x c H Hc; [injection H as <-; destruct Hc|]. cbn [concat_texts] in H. destruct (token_text s t) as [y| |] eqn:T; try discriminate H. cbn [bind] in H. destruct (concat_texts s ts) as [z| |] eqn:Z; try discriminate H. cbn [bind] in H. injection H as <-.
  apply in_app_iff in Hc. destruct Hc as [Hc|Hc]; [|exact (IH z c eq_refl Hc)]. apply slice_inv in T. destruct T as (a & b & -> & _). apply in_or_app. right. apply in_or_app. left. exact Hc.
Qed.
Lemma win_ops : forall s ops ops', unix s -> parse s = Ok ops -> parse (G s) = Ok ops' -> Forall2 (win_op s) ops ops'.
Proof.
  intros s ops ops' U P P'. pose proof (crlf_ops s ops ops' U P P') as W. pose proof (parse_stands s ops P) as S. clear P P'. revert W. generalize (cuts 0 (fparse (spec_tokens s))) as cs, ops', S. clear ops' S. induction ops as [|o ops IH]; intros cs ops' S W; inversion W as [|? o' ? ops2 (K & x & H & H') W']; subst; [constructor|].
  inversion S as [|? c ? cs' Sc S']; subst. constructor; [|eapply IH; eassumption]. split; [exact K|]. exists x. split; [|split; assumption]. intros X. unfold stands in Sc. rewrite H in Sc. symmetry in Sc. destruct U as [U _]. apply U. eapply token_text_in; eassumption.
Qed.
Lemma win_document : forall s y y', unix s -> deserialize s = Ok y -> deserialize (crlf s) = Ok y' -> strip_yamd y' = reword_yamd win y.
Proof.
  intros s y y' U H H'. change (crlf s) with (G s) in H'. unfold deserialize in H, H'. destruct (parse_refines s) as [P _]. destruct (parse_refines (G s)) as [P' _]. rewrite P in H. rewrite P' in H'. cbn [bind] in H, H'.
  pose proof (win_ops s _ _ U P P') as W. unfold to_yamd, try_to_yamd in H, H'.
  assert (N0 : Forall2 near [FYamd None []] [FYamd None []]) by (constructor; [split; [reflexivity|exact I]|constructor]).
  pose proof (near_run s _ _ _ _ W N0) as R. destruct (run s _ [FYamd None []]) as [[st|]| |]; try discriminate H. destruct R as (st' & E & F). rewrite E in H'. cbn [bind] in H, H'.
  destruct F as [|f f' st st' [N C] F]; [discriminate H|]. destruct f as [mm bb| | | | | | | | | | | | | | | | | | | | | | | |]; try discriminate H. destruct f' as [mm' bb'| | | | | | | | | | | | | | | | | | | | | | | |]; try discriminate N. cbn [bind sframe rframe clean] in *. injection H as <-. injection H' as <-. injection N as N1 N2. unfold yamd_new, strip_yamd, reword_yamd. cbn [Ast.metadata Ast.body]. rewrite N2. f_equal.
  destruct mm as [m|].
  - destruct C as (x & D & -> & ->). cbn [option_map]. rewrite both_G, trim_both_twice. unfold reword. rewrite strip_both by exact D. reflexivity.
  - destruct mm'; [discriminate N1|reflexivity].
Qed.

(** ** What is stripped *)

Lemma back_shape : forall n r, List.length r <= n -> exists k, r = flat_map (fun _ => [c_nl; c_cr]) (repeat tt k) ++ drop_back r.
Proof.
  induction n as [|n IH]; intros r L; [destruct r; [exists 0; reflexivity|cbn in L; lia]|]. destruct r as [|a [|b r]]; try (exists 0; reflexivity). cbn [drop_back]. destruct (char_eqb a c_nl && char_eqb b c_cr) eqn:E; [|exists 0; reflexivity].
  apply andb_true_iff in E. destruct E as [E1 E2]. apply char_eqb_eq in E1. apply char_eqb_eq in E2. subst. cbn [List.length] in L. destruct (IH r ltac:(lia)) as (k & K). exists (S k). cbn [repeat flat_map app]. rewrite <- K. reflexivity.
Qed.
Lemma pairs_rev : forall k, rev (flat_map (fun _ : unit => [c_nl; c_cr]) (repeat tt k)) = G (repeat c_nl k).
Proof.
  induction k as [|k IH]; [reflexivity|]. cbn [repeat flat_map]. rewrite rev_app_distr, IH. clear IH. induction k as [|k IH]; [reflexivity|]. cbn [repeat flat_map]. rewrite <- app_assoc, IH. reflexivity.
Qed.
Lemma strip_shape : forall x x', strip_end x' = crlf x -> x' = crlf x \/ exists k, x' = crlf (x ++ repeat c_nl k) ++ [c_cr].
Proof.
  intros x x' H. change (crlf x) with (G x) in *. destruct x' as [|c x' _] using rev_ind; [left; exact H|]. rewrite strip_snoc in H. destruct (char_eqb c c_cr) eqn:E; [|left; exact H]. right. apply char_eqb_eq in E. subst c.
  destruct (back_shape (List.length (rev x')) (rev x') (Nat.le_refl _)) as (k & K). exists k. change (crlf (x ++ repeat c_nl k)) with (G (x ++ repeat c_nl k)). rewrite flat_map_app, <- H, <- pairs_rev, <- rev_app_distr, <- K, rev_involutive. reflexivity.
Qed.
