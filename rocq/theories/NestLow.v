(** Texts with as many nested blocks as their length allows. *)
From Coq Require Import String Lia.
From Verif Require Import Base Lexer LexSpec LexProofs LexFacts Ops Parser FParser Refine Refine2 Refine3
  Wf TokFacts Ast ToYamd Api StreamSpec StreamProofs StreamProofs2 TreeAst AstSpec Tame TameDec BackIff Plain EscapeSpec Escapes Tokens NestSpec.
Open Scope list_scope.
Notation len := List.length.

(** ** The texts: lists in lists with empty items, collapsibles without titles *)

Fixpoint stair (lvl d : nat) : str :=
  repeat c_space lvl ++ [c_minus; c_space; c_nl] ++ match d with 0 => [] | S d => stair (S lvl) d end.
(** [d] lists, each on its line. *)
Definition inner (d : nat) : str := match d with 0 => [] | S d => stair 0 d end.
Definition open_line : str := [c_lcurly; c_percent; c_nl].
Fixpoint shells (d c : nat) : str :=
  match c with 0 => open_line ++ inner d ++ [c_percent; c_rcurly] | S c => open_line ++ shells d c ++ [c_nl; c_percent; c_rcurly] end.
Lemma stair_length : forall d lvl, 2 * len (stair lvl d) = S d * S d + 5 * S d + 2 * S d * lvl.
Proof.
  induction d as [|d IH]; intros lvl; cbn [stair]; rewrite !app_length, repeat_length; cbn [len]; [lia|]. specialize (IH (S lvl)). lia.
Qed.
Lemma shells_length : forall d c, 2 * len (shells d c) + 2 = 12 * S c + d * d + 5 * d.
Proof.
  intros d. induction c as [|c IH]; cbn [shells]; rewrite !app_length; cbn [open_line len].
  - destruct d as [|d]; cbn [inner len]; [reflexivity|]. pose proof (stair_length d 0). lia.
  - lia.
Qed.

(** ** The pieces *)

Definition op : piece := mk_piece CollapsibleStart [c_lcurly; c_percent] false.
Definition eo : piece := mk_piece Eol [c_nl] false.
Definition ce : piece := mk_piece CollapsibleEnd [c_percent; c_rcurly] false.
Definition sps (n : nat) : piece := mk_piece Space (repeat c_space n) false.
Definition mi : piece := mk_piece Minus [c_minus] false.
Fixpoint stair_pieces (lvl d : nat) : list piece :=
  match lvl with 0 => [] | _ => [sps lvl] end ++ [mi; sps 1; eo] ++ match d with 0 => [] | S d => stair_pieces (S lvl) d end.
Definition inner_pieces (d : nat) : list piece := match d with 0 => [] | S d => stair_pieces 0 d end.
Fixpoint shell_pieces (d c : nat) : list piece :=
  match c with 0 => op :: eo :: inner_pieces d ++ [ce] | S c => op :: eo :: shell_pieces d c ++ [eo; ce] end.

Lemma scan_next : forall n x p r, scan_one x = Some (p, r) -> scan (S n) x = p :: scan n r.
Proof. intros n x p r E. cbn [scan]. rewrite E. reflexivity. Qed.
Lemma spaces_scan : forall n rest, scan_one (repeat c_space (S n) ++ c_minus :: rest) = Some (sps (S n), c_minus :: rest).
Proof.
  intros n rest. cbn [repeat app scan_one]. assert (E : pair_kind c_space (repeat c_space n ++ c_minus :: rest) = None) by (destruct n; reflexivity). rewrite E.
  change (char_eqb c_space c_bslash) with false. cbv iota. change (run_kind c_space) with (Some Space). cbv iota. rewrite char_run_repeat_app by discriminate. reflexivity.
Qed.
Lemma stair_scan : forall d lvl rest n, len (stair lvl d) + len rest <= n -> (exists r, rest = c_percent :: r) ->
  exists m, len rest <= m /\ scan n (stair lvl d ++ rest) = stair_pieces lvl d ++ scan m rest.
Proof.
  intros d lvl rest. revert lvl. induction d as [|d IH]; intros lvl n L R.
  - destruct R as (r & ->). cbn [stair stair_pieces] in *. rewrite app_nil_r in *. rewrite app_length, repeat_length in L. cbn [len] in L.
    destruct lvl as [|lvl].
    + destruct n as [|[|[|n]]]; try lia. exists n. split; [cbn [len]; lia|reflexivity].
    + destruct n as [|[|[|[|n]]]]; try lia. exists n. split; [cbn [len]; lia|].
      rewrite <- !app_assoc. cbn [app]. cbn [scan]. rewrite spaces_scan. reflexivity.
  - cbn [stair stair_pieces] in *. rewrite !app_length, repeat_length in L. cbn [len] in L.
    assert (E0 : exists x, stair (S lvl) d ++ rest = c_space :: x) by (destruct d; cbn; eauto). destruct E0 as (x & E0).
    destruct lvl as [|lvl].
    + destruct n as [|[|[|n]]]; try lia. destruct (IH 1 n) as (m & Lm & E); [lia|exact R|]. exists m. split; [exact Lm|].
      rewrite <- !app_assoc. cbn [repeat app]. rewrite E0 in *.
      rewrite (scan_next _ (c_minus :: c_space :: c_nl :: c_space :: x) mi (c_space :: c_nl :: c_space :: x)) by reflexivity.
      rewrite (scan_next _ _ (sps 1) (c_nl :: c_space :: x)), (scan_next _ _ eo (c_space :: x)), E by reflexivity. reflexivity.
    + destruct n as [|[|[|[|n]]]]; try lia. destruct (IH (S (S lvl)) n) as (m & Lm & E); [lia|exact R|]. exists m. split; [exact Lm|].
      rewrite <- !app_assoc. cbn [app]. rewrite E0 in *.
      rewrite (scan_next _ _ _ _ (spaces_scan _ _)).
      rewrite (scan_next _ (c_minus :: c_space :: c_nl :: c_space :: x) mi (c_space :: c_nl :: c_space :: x)) by reflexivity.
      rewrite (scan_next _ _ (sps 1) (c_nl :: c_space :: x)), (scan_next _ _ eo (c_space :: x)), E by reflexivity. reflexivity.
Qed.
Lemma shells_head : forall d c, exists r, shells d c = c_lcurly :: r.
Proof. destruct c; cbn; eauto. Qed.
Lemma shells_scan : forall d c rest n, len (shells d c) + len rest <= n -> exists m, len rest <= m /\ scan n (shells d c ++ rest) = shell_pieces d c ++ scan m rest.
Proof.
  intros d. induction c as [|c IH]; intros rest n L; cbn [shells shell_pieces] in *; rewrite !app_length in L; cbn [open_line len] in L; (destruct n as [|[|n]]; try lia); rewrite <- !app_assoc.
  - assert (I0 : exists m, S (len rest) <= m /\ scan n (inner d ++ [c_percent; c_rcurly] ++ rest) = inner_pieces d ++ scan m ([c_percent; c_rcurly] ++ rest)).
    { destruct d as [|d]; [exists n; split; [lia|reflexivity]|]. destruct (stair_scan d 0 ([c_percent; c_rcurly] ++ rest) n) as (m & Lm & E); [cbn [len app inner] in *; lia|eexists; reflexivity|].
      exists m. split; [cbn [len app] in Lm; lia|exact E]. }
    destruct I0 as (m & Lm & E). destruct m as [|m]; [lia|]. exists m. split; [lia|].
    assert (E1 : scan_one (open_line ++ inner d ++ [c_percent; c_rcurly] ++ rest) = Some (op, c_nl :: inner d ++ [c_percent; c_rcurly] ++ rest)) by reflexivity.
    assert (E2 : scan_one (c_nl :: inner d ++ [c_percent; c_rcurly] ++ rest) = Some (eo, inner d ++ [c_percent; c_rcurly] ++ rest)) by (destruct d as [|[|d]]; reflexivity).
    cbn [scan]. rewrite E1. cbn [scan]. rewrite E2, E. cbn [app]. rewrite <- app_assoc. reflexivity.
  - destruct (IH ([c_nl; c_percent; c_rcurly] ++ rest) n) as (m & Lm & E); [rewrite app_length; cbn [len]; lia|].
    rewrite app_length in Lm. cbn [len] in Lm. destruct m as [|[|m]]; try lia. exists m. split; [lia|].
    destruct (shells_head d c) as (r & Er).
    assert (E1 : scan_one (open_line ++ shells d c ++ [c_nl; c_percent; c_rcurly] ++ rest) = Some (op, c_nl :: shells d c ++ [c_nl; c_percent; c_rcurly] ++ rest)) by reflexivity.
    assert (E2 : scan_one (c_nl :: shells d c ++ [c_nl; c_percent; c_rcurly] ++ rest) = Some (eo, shells d c ++ [c_nl; c_percent; c_rcurly] ++ rest)) by (rewrite Er; reflexivity).
    cbn [scan]. rewrite E1. cbn [scan]. rewrite E2, E. cbn [app]. rewrite <- app_assoc. reflexivity.
Qed.
Lemma merge_other : forall p l, kind_eqb (p_kind p) Eol = false -> merge (p :: l) = p :: merge l.
Proof. intros p l E. destruct l as [|q l]; [reflexivity|]. cbn [merge]. rewrite E. reflexivity. Qed.
Lemma merge_before : forall p q l, kind_eqb (p_kind q) Eol = false -> merge (p :: q :: l) = p :: merge (q :: l).
Proof. intros p q l E. cbn [merge]. rewrite E, andb_false_r. reflexivity. Qed.
Lemma stair_merge : forall d lvl p rest, kind_eqb (p_kind p) Eol = false -> merge (stair_pieces lvl d ++ p :: rest) = stair_pieces lvl d ++ merge (p :: rest).
Proof.
  intros d lvl p rest P. revert lvl. induction d as [|d IH]; intros lvl; cbn [stair_pieces]; rewrite <- !app_assoc; (destruct lvl as [|lvl]; cbn [app]; rewrite ?(merge_other (sps _)) by reflexivity; rewrite (merge_other mi), (merge_other (sps 1)) by reflexivity).
  - rewrite merge_before by exact P. reflexivity.
  - rewrite merge_before by exact P. reflexivity.
  - assert (X : forall q, merge (eo :: stair_pieces 1 d ++ q) = eo :: merge (stair_pieces 1 d ++ q)) by (intros q; destruct d; cbn [stair_pieces app]; apply merge_before; reflexivity).
    rewrite X, IH. reflexivity.
  - assert (X : forall q, merge (eo :: stair_pieces (S (S lvl)) d ++ q) = eo :: merge (stair_pieces (S (S lvl)) d ++ q)) by (intros q; destruct d; cbn [stair_pieces app]; apply merge_before; reflexivity).
    rewrite X, IH. reflexivity.
Qed.
Lemma shells_merge : forall d c rest, merge (shell_pieces d c ++ rest) = shell_pieces d c ++ merge rest.
Proof.
  intros d. induction c as [|c IH]; intros rest; cbn [shell_pieces app]; rewrite <- app_assoc; rewrite merge_other by reflexivity.
  - assert (X : merge (eo :: inner_pieces d ++ [ce] ++ rest) = eo :: merge (inner_pieces d ++ [ce] ++ rest)).
    { destruct d as [|[|d]]; cbn [inner_pieces stair_pieces app]; apply merge_before; reflexivity. }
    rewrite X. assert (Y : merge (inner_pieces d ++ [ce] ++ rest) = inner_pieces d ++ merge ([ce] ++ rest)) by (destruct d; [reflexivity|apply stair_merge; reflexivity]).
    rewrite Y. cbn [app]. rewrite merge_other by reflexivity. rewrite <- app_assoc. reflexivity.
  - assert (X : forall r, merge (eo :: shell_pieces d c ++ r) = eo :: merge (shell_pieces d c ++ r)) by (intros r; destruct c; cbn [shell_pieces app]; apply merge_before; reflexivity).
    rewrite X, IH. cbn [app]. rewrite merge_before, merge_other by reflexivity. rewrite <- app_assoc. reflexivity.
Qed.

(** ** The tokens *)

Inductive steps : nat -> nat -> list token -> Prop :=
| steps_last : forall lvl o e, marker lvl Unordered o -> kind e = Eol -> col0 e = false -> steps lvl 0 (o ++ [e])
| steps_more : forall lvl d o e ts, marker lvl Unordered o -> kind e = Eol -> col0 e = false -> steps (S lvl) d ts -> steps lvl (S d) (o ++ e :: ts).
Definition inside (d : nat) (ts : list token) : Prop := match d with 0 => ts = [] | S d => steps 0 d ts end.
Inductive shell (d : nat) : nat -> list token -> Prop :=
| shell_last : forall a e m z, is_collapsible_start a = true -> kind e = Eol -> inside d m -> is_collapsible_end z = true -> shell d 0 (a :: e :: m ++ [z])
| shell_more : forall c a e ts e' z, is_collapsible_start a = true -> kind e = Eol -> shell d c ts -> kind e' = Eol -> is_collapsible_end z = true ->
    shell d (S c) (a :: e :: ts ++ [e'; z]).
Definition tok (k : token_kind) (b n col r : nat) : token := mk_token k b (b + n) (mk_pos b col r) false.
Lemma tok_len : forall k b n col r, tlen (tok k b n col r) = n.
Proof. intros. unfold tlen, tok. cbn [t_start t_end]. lia. Qed.
Lemma marker_annotate : forall lvl rest o r, exists ts e o', annotate o 0 r (match lvl with 0 => [] | _ => [sps lvl] end ++ [mi; sps 1; eo] ++ rest)
    = ts ++ e :: annotate o' 0 (r + 1) rest /\ marker lvl Unordered ts /\ kind e = Eol /\ col0 e = false.
Proof.
  intros lvl rest o r. destruct lvl as [|lvl].
  - exists [tok Minus o 1 0 r; tok Space (o + 1) 1 1 r], (tok Eol (o + 2) 1 2 r), (o + 3). split; [|split; [|split; reflexivity]].
    + cbn [app annotate sps mi eo p_kind p_esc p_text kind_rows Nat.eqb repeat List.length]. rewrite !Nat.add_0_r. unfold tok.
      change (byte_len [c_minus]) with 1. change (byte_len [c_space]) with 1. change (byte_len [c_nl]) with 1. cbn [Nat.add]. replace (o + 1 + 1) with (o + 2) by lia. replace (o + 2 + 1) with (o + 3) by lia. reflexivity.
    + split; [reflexivity|]. eexists _, _. split; [|split; [|reflexivity]]; unfold list_kind_of, is_space_1; rewrite tok_len; reflexivity.
  - exists [tok Space o (S lvl) 0 r; tok Minus (o + S lvl) 1 (S lvl) r; tok Space (o + S lvl + 1) 1 (S lvl + 1) r], (tok Eol (o + S lvl + 2) 1 (S lvl + 2) r), (o + S lvl + 3).
    split; [|split; [|split; reflexivity]].
    + cbn [app annotate sps mi eo p_kind p_esc p_text kind_rows Nat.eqb]. rewrite !Nat.add_0_r, byte_len_repeat, repeat_length. unfold tok.
      change (byte_len [c_minus]) with 1. change (byte_len (repeat c_space 1)) with 1. change (byte_len [c_nl]) with 1. change (utf8_len c_space) with 1.
      rewrite Nat.mul_1_l. cbn [repeat List.length].
      replace (0 + S lvl) with (S lvl) by lia. replace (o + S lvl + 1 + 1) with (o + S lvl + 2) by lia. replace (o + S lvl + 2 + 1) with (o + S lvl + 3) by lia. replace (S lvl + 1 + 1) with (S lvl + 2) by lia. reflexivity.
    + split; [reflexivity|]. exists (tok Minus (o + S lvl) 1 (S lvl) r), (tok Space (o + S lvl + 1) 1 (S lvl + 1) r).
      split; [unfold list_kind_of; rewrite tok_len; reflexivity|]. split; [unfold is_space_1; rewrite tok_len; reflexivity|].
      eexists. split; [reflexivity|]. unfold is_indent. rewrite tok_len, Nat.eqb_refl. reflexivity.
Qed.
Lemma stair_annotate : forall d lvl rest o r, exists ts o' r', annotate o 0 r (stair_pieces lvl d ++ rest) = ts ++ annotate o' 0 r' rest /\ steps lvl d ts.
Proof.
  induction d as [|d IH]; intros lvl rest o r; cbn [stair_pieces]; rewrite <- !app_assoc.
  - destruct (marker_annotate lvl rest o r) as (ts & e & o' & E & M & K & C). change ([] ++ rest) with rest. rewrite E. exists (ts ++ [e]), o', (r + 1). split; [rewrite <- app_assoc; reflexivity|]. constructor; assumption.
  - destruct (marker_annotate lvl (stair_pieces (S lvl) d ++ rest) o r) as (ts & e & o' & E & M & K & C). rewrite E.
    destruct (IH (S lvl) rest o' (r + 1)) as (ts' & o2 & r2 & E' & H). rewrite E'. exists (ts ++ e :: ts'), o2, r2. split; [rewrite <- app_assoc; reflexivity|]. constructor; assumption.
Qed.
Lemma shells_annotate : forall d c rest o r, exists ts o' r', annotate o 0 r (shell_pieces d c ++ rest) = ts ++ annotate o' 2 r' rest /\ shell d c ts.
Proof.
  intros d. induction c as [|c IH]; intros rest o r; cbn [shell_pieces app annotate]; rewrite <- app_assoc; change (if kind_rows (p_kind eo) =? 0 then _ else 0) with 0.
  - set (o1 := o + _ + _ + _ + _). set (r1 := r + _ + _).
    assert (X : exists m o' r', annotate o1 0 r1 (inner_pieces d ++ [ce] ++ rest) = m ++ annotate o' 0 r' ([ce] ++ rest) /\ inside d m).
    { destruct d as [|d]; [exists [], o1, r1; split; reflexivity|]. apply stair_annotate. }
    destruct X as (m & o' & r' & -> & H). cbn [app annotate]. eexists (_ :: _ :: m ++ [_]), _, _. split; [cbn [app]; rewrite <- app_assoc; reflexivity|]. constructor; try reflexivity. exact H.
  - edestruct (IH ([eo; ce] ++ rest)) as (ts & o' & r' & E & H). rewrite E. cbn [app annotate].
    eexists (_ :: _ :: ts ++ [_; _]), _, _. split; [cbn [app]; rewrite <- app_assoc; reflexivity|]. constructor; try reflexivity. exact H.
Qed.
Lemma shells_tokens : forall d c, shell d c (spec_tokens (shells d c)).
Proof.
  intros d c. unfold spec_tokens, pieces, raw_pieces. destruct (shells_scan d c [] (len (shells d c))) as (m & _ & E); [cbn; lia|].
  rewrite app_nil_r in E. rewrite E. replace (scan m []) with (@nil piece) by (destruct m; reflexivity). rewrite shells_merge.
  destruct (shells_annotate d c (merge []) 0 0) as (ts & o' & r' & E' & H). rewrite E'. cbn [merge annotate]. rewrite app_nil_r. exact H.
Qed.

(** ** Reading the tokens *)

Lemma start_kind : forall a, is_collapsible_start a = true -> kind a = CollapsibleStart /\ col0 a = true.
Proof. intros a H. unfold is_collapsible_start in H. apply andb_prop in H. destruct H as [H C]. apply kind_eqb_eq in H. auto. Qed.
Lemma end_kind : forall a, is_collapsible_end a = true -> kind a = CollapsibleEnd /\ col0 a = true.
Proof. intros a H. unfold is_collapsible_end in H. apply andb_prop in H. destruct H as [H C]. apply kind_eqb_eq in H. auto. Qed.
Lemma end_read : forall z r0 rest, is_collapsible_end z = true -> (r0 = [] /\ rest = [] \/ exists e, r0 = [e] /\ kind e = Eol) ->
  exists c, fcollapsible_end (z :: r0 ++ rest) = Some (c, rest).
Proof.
  intros z r0 rest Z [[-> ->]|(e & -> & E)]; unfold fcollapsible_end; cbn [fseq app]; rewrite Z; cbn [fseq]; [eauto|].
  unfold is_eol. rewrite E. cbn. eauto.
Qed.
Definition all_ends : list stop_condition -> Prop := Forall (eq StopCollapsibleEnd).
Lemma stop_end : forall st z r, is_collapsible_end z = true -> stopped (StopCollapsibleEnd :: st) (z :: r) = true.
Proof. intros st z r Z. unfold stopped. cbn [existsb fmatches nth_is nth_error is_some_and]. rewrite Z. reflexivity. Qed.
Lemma stop_line : forall st e z r, kind e = Eol -> is_collapsible_end z = true -> stopped (StopCollapsibleEnd :: st) (e :: z :: r) = true.
Proof. intros st e z r E Z. unfold stopped. cbn [existsb fmatches nth_is nth_error is_some_and]. unfold is_eol. rewrite E, Z. cbn. rewrite orb_true_r. reflexivity. Qed.
Lemma stop_more : forall c st ts, stopped st ts = true -> stopped (c :: st) ts = true.
Proof. intros c st [|t ts] H; [reflexivity|]. unfold stopped in *. cbn [existsb]. rewrite H. apply orb_true_r. Qed.
(** A token that starts neither a closing line nor one after it. *)
Lemma no_stop : forall st a r, all_ends st -> kind a <> CollapsibleEnd -> (kind a = Eol -> nth_is 0 is_collapsible_end r = false) -> stopped st (a :: r) = false.
Proof.
  intros st a r F N E. unfold stopped. induction F as [|x st <- F IH]; [reflexivity|]. cbn [existsb]. rewrite IH, orb_false_r. cbn [fmatches].
  assert (nth_is 0 is_collapsible_end (a :: r) = false) as ->.
  { unfold nth_is. cbn [nth_error is_some_and]. unfold is_collapsible_end. destruct (kind_eqb (kind a) CollapsibleEnd) eqn:X; [apply kind_eqb_eq in X; congruence|reflexivity]. }
  cbn [orb]. change (nth_is 1 is_collapsible_end (a :: r)) with (nth_is 0 is_collapsible_end r). unfold nth_is at 1. cbn [nth_error is_some_and]. unfold is_eol.
  destruct (kind_eqb (kind a) Eol) eqn:X; [|reflexivity]. apply kind_eqb_eq in X. apply E. exact X.
Qed.
Lemma marker_next : forall lvl lk o r, marker lvl lk o -> nth_is 0 col0 (o ++ r) = true /\ nth_error (o ++ r) (if lvl =? 0 then 0 else 1) = nth_error o (if lvl =? 0 then 0 else 1)
  /\ (exists m, nth_error o (if lvl =? 0 then 0 else 1) = Some m /\ list_kind_of m = Some lk)
  /\ fseq (marker_preds lvl None) (o ++ r) = Some (o, r)
  /\ (forall k, k = None \/ k = Some lk -> boundary_at lvl k (o ++ r) = true)
  /\ exists a l, o = a :: l /\ (kind a = Space \/ kind a = Minus \/ kind a = Plus) /\ (lvl = 0 -> list_kind_of a = Some lk).
Proof.
  intros lvl lk o r (C & m & sp & M & S1 & H).
  assert (Km : kind m = Minus \/ kind m = Plus).
  { unfold list_kind_of in M. destruct (kind_eqb (kind m) Minus) eqn:X; [apply kind_eqb_eq in X; auto|]. destruct (kind_eqb (kind m) Plus) eqn:Y; [apply kind_eqb_eq in Y; auto|]. discriminate. }
  assert (L : forall k, k = None \/ k = Some lk -> is_list_marker k m = true) by (intros k [-> | ->]; unfold is_list_marker; rewrite M; [reflexivity|destruct lk; reflexivity]).
  destruct lvl as [|lvl]; [subst o|destruct H as (i & -> & I0)]; unfold nth_is in C; cbn [nth_error is_some_and] in C.
  - repeat split; try exact C; try (exists m; split; [reflexivity|exact M]).
    + unfold marker_preds. cbn [Nat.eqb fseq app]. rewrite (L None (or_introl eq_refl)), S1. reflexivity.
    + intros k K. unfold boundary_at, nth_is. cbn [Nat.eqb app nth_error is_some_and]. rewrite C, (L k K), S1. reflexivity.
    + exists m, [sp]. split; [reflexivity|]. split; [auto|]. intros _. exact M.
  - repeat split; try exact C; try (exists m; split; [reflexivity|exact M]).
    + unfold marker_preds. cbn [Nat.eqb fseq app]. rewrite I0, (L None (or_introl eq_refl)), S1. reflexivity.
    + intros k K. unfold boundary_at, nth_is. cbn [Nat.eqb app nth_error is_some_and]. rewrite C, I0, (L k K), S1. reflexivity.
    + exists i, [m; sp]. split; [reflexivity|]. unfold is_indent in I0. apply andb_true_iff in I0. destruct I0 as [I0 _]. apply kind_eqb_eq in I0. split; [auto|discriminate].
Qed.
Lemma steps_marker : forall lvl d ts, steps lvl d ts -> exists o r, ts = o ++ r /\ marker lvl Unordered o.
Proof. intros lvl d ts H. destruct H; eauto. Qed.
Lemma eol_plain : forall st e r, kind e = Eol -> finline st (e :: r) = None.
Proof.
  intros st e r K. unfold finline, fanchor, fbold, fitalic, fstrike, fcode_span, femphasis, ftitle, fdelim, forelse.
  unfold is_left_bracket, is_star2, is_underscore, is_tilde, is_backtick, is_star. rewrite K. reflexivity.
Qed.
Section Read.
  Variable s : str.
  Lemma stair_read : forall lvl d ts, steps lvl d ts -> forall st n z rest, is_collapsible_end z = true -> all_ends st -> 2 * d + 2 <= n ->
    exists t e', flist n lvl (StopTerminator :: StopCollapsibleEnd :: st) (ts ++ z :: rest) = Some (Unordered, t, e' :: z :: rest)
      /\ kind e' = Eol /\ col0 e' = false /\ root NUnorderedList t /\ levels (S d) (list_of s lvl t).
  Proof.
    intros lvl d ts H. induction H as [lvl o e M K C|lvl d o e ts M K C H IH]; intros st n z rest Z F L; (destruct n as [|[|n]]; try lia).
    - rewrite <- app_assoc. cbn [app]. destruct (marker_next _ _ _ (e :: z :: rest) M) as (M1 & M2 & (m & M3 & M4) & M5 & _).
      exists (Node NUnorderedList [] [Node NListItem o [Node NParagraph [] [] []] []] []), e. split; [|split; [exact K|split; [exact C|split; [eexists _, _, _; reflexivity|]]]].
      + cbn [flist fitem]. rewrite M1. cbn [negb]. rewrite M2, M3, M4, M5. set (st' := StopTerminator :: StopCollapsibleEnd :: st).
        assert (T : stopped st' (e :: z :: rest) = true) by (apply stop_more, stop_line; assumption).
        assert (P : fparagraph (StopListBoundary lvl Unordered :: st') (e :: z :: rest) = (Node NParagraph [] [] [], e :: z :: rest)).
        { unfold fparagraph. cbn [List.length fitems]. rewrite (stop_more _ _ _ T). reflexivity. }
        rewrite P, T. cbn [negb]. cbn [flist_items]. destruct n as [|n]; cbn [fitem]; [reflexivity|]. unfold nth_is at 1. cbn [nth_error is_some_and]. rewrite C. reflexivity.
      + rewrite list_of_eq. apply levels_one.
    - rewrite <- app_assoc. cbn [app]. destruct (marker_next _ _ _ (e :: ts ++ z :: rest) M) as (M1 & M2 & (m & M3 & M4) & M5 & _).
      destruct (steps_marker _ _ _ H) as (o2 & r2 & E2 & Mk). destruct (marker_next _ _ _ (r2 ++ z :: rest) Mk) as (N1 & _ & _ & _ & N5 & (a & l & Ea & Ka & _)).
      destruct (IH st n z rest Z F ltac:(lia)) as (t & e' & Et & K' & C' & Rt & Lt).
      exists (Node NUnorderedList [] [Node NListItem o [Node NParagraph [] [Leaf [e]] []; t] []] []), e'. split; [|split; [exact K'|split; [exact C'|split; [eexists _, _, _; reflexivity|]]]].
      + cbn [flist fitem]. rewrite M1. cbn [negb]. rewrite M2, M3, M4, M5. set (st' := StopTerminator :: StopCollapsibleEnd :: st) in *.
        assert (Hd : ts ++ z :: rest = a :: l ++ r2 ++ z :: rest) by (rewrite E2, Ea, <- app_assoc; reflexivity).
        assert (Na : kind a <> CollapsibleEnd /\ kind a <> Eol /\ kind a <> Terminator) by (destruct Ka as [->|[->| ->]]; repeat split; discriminate). destruct Na as (Nc & Ne & Nt).
        assert (T1 : stopped (StopListBoundary lvl Unordered :: st') (e :: ts ++ z :: rest) = false).
        { assert (X : stopped (StopCollapsibleEnd :: st) (e :: ts ++ z :: rest) = false).
          { apply no_stop; [constructor; [reflexivity|exact F]|rewrite K; discriminate|]. intros _. rewrite Hd. unfold nth_is. cbn [nth_error is_some_and]. unfold is_collapsible_end.
            destruct (kind_eqb (kind a) CollapsibleEnd) eqn:X; [apply kind_eqb_eq in X; contradiction|reflexivity]. }
          unfold stopped in *. unfold st'. cbn [existsb] in *. rewrite X, orb_false_r. cbn [fmatches]. unfold nth_is at 1. cbn [nth_error is_some_and]. rewrite C. cbn [andb orb].
          unfold nth_is. cbn [nth_error is_some_and]. unfold is_terminator. rewrite K. reflexivity. }
        assert (T2 : stopped (StopListBoundary lvl Unordered :: st') (ts ++ z :: rest) = true).
        { rewrite E2, <- app_assoc in *. assert (B : fmatches (StopListBoundary lvl Unordered) (o2 ++ r2 ++ z :: rest) = true).
          { cbn [fmatches]. rewrite N1. cbn [andb]. apply existsb_exists. exists (S lvl). split; [apply in_seq; lia|]. replace (S lvl =? lvl) with false by (symmetry; apply Nat.eqb_neq; lia). apply N5. left. reflexivity. }
          unfold stopped. rewrite Ea in *. cbn [app] in *. cbn [existsb]. rewrite B. reflexivity. }
        assert (T3 : stopped st' (ts ++ z :: rest) = false).
        { rewrite Hd. assert (X : stopped (StopCollapsibleEnd :: st) (a :: l ++ r2 ++ z :: rest) = false).
          { apply no_stop; [constructor; [reflexivity|exact F]|exact Nc|]. intros Y. contradiction. }
          unfold stopped in *. unfold st'. cbn [existsb] in *. rewrite X, orb_false_r. cbn [fmatches]. unfold nth_is. cbn [nth_error is_some_and]. unfold is_terminator.
          destruct (kind_eqb (kind a) Terminator) eqn:Y; [apply kind_eqb_eq in Y; contradiction|reflexivity]. }
        assert (P : fparagraph (StopListBoundary lvl Unordered :: st') (e :: ts ++ z :: rest) = (Node NParagraph [] [Leaf [e]] [], ts ++ z :: rest)).
        { unfold fparagraph. cbn [List.length fitems]. rewrite T1, eol_plain by exact K. rewrite T2. reflexivity. }
        rewrite P, T3. cbn [negb]. replace (lvl + 1) with (S lvl) by lia. rewrite Et. cbn [flist_items]. destruct n as [|n]; cbn [fitem]; [reflexivity|]. unfold nth_is at 1. cbn [nth_error is_some_and]. rewrite C'. reflexivity.
      + rewrite list_of_eq. cbn [flat_map item_of app]. eapply levels_more; [left; reflexivity|]. exact Lt.
  Qed.

  (** What is inside the innermost collapsible. *)
  Lemma inner_read : forall d m, inside d m -> forall st n z rest, is_collapsible_end z = true -> all_ends st -> 2 <= n ->
    exists k e3, fdoc n (StopCollapsibleEnd :: st) (m ++ z :: rest) = (k, e3 ++ z :: rest) /\ (e3 = [] \/ exists e, e3 = [e] /\ kind e = Eol)
      /\ nth_is 0 col0 (m ++ z :: rest) = true /\ match d with 0 => flat_map (blocks s) k = [] | _ => exists b, flat_map (blocks s) k = [b] /\ nest 0 d b end.
  Proof.
    intros [|d] m H st n z rest Z F L; cbn [inside] in H.
    - subst m. exists [], []. destruct n as [|n]; [lia|]. cbn [app fdoc]. rewrite stop_end by exact Z. split; [reflexivity|]. split; [left; reflexivity|]. split; [apply (end_kind z Z)|reflexivity].
    - destruct (steps_marker _ _ _ H) as (o2 & r2 & E2 & Mk). destruct (marker_next _ _ _ (r2 ++ z :: rest) Mk) as (N1 & _ & _ & _ & _ & (a & l & Ea & Ka & Kl)).
      specialize (Kl eq_refl).
      assert (Ka' : kind a = Minus) by (unfold list_kind_of in Kl; destruct Ka as [E|[E|E]]; rewrite E in Kl; destruct (tlen a =? 1); vm_compute in Kl; first [exact E|discriminate]).
      assert (Hd : m ++ z :: rest = a :: l ++ r2 ++ z :: rest) by (rewrite E2, Ea, <- app_assoc; reflexivity).
      assert (Ld : d < len (m ++ z :: rest)).
      { clear -H. rewrite app_length. assert (d < len m); [|lia]. induction H; rewrite app_length; cbn [len]; lia. }
      destruct (stair_read _ _ _ H st (2 * len (m ++ z :: rest) + 3) z rest Z F ltac:(lia)) as (t & e' & Et & K' & C' & (oo & kk & cc & ->) & Lt).
      exists [Node NUnorderedList oo kk cc], [e']. split; [|split; [right; eauto|split; [rewrite E2, <- app_assoc; exact N1|]]].
      + destruct n as [|[|n]]; try lia. cbn [fdoc].
        assert (FC : fcollapsible (S n) (StopCollapsibleEnd :: st) (m ++ z :: rest) = CFail (m ++ z :: rest)).
        { cbn [fcollapsible]. rewrite Hd. cbn [fseq]. unfold is_collapsible_start at 1. rewrite Ka'. reflexivity. }
        assert (FO : fcode (StopCollapsibleEnd :: st) (m ++ z :: rest) = None).
        { rewrite Hd. unfold fcode, ffence. cbn [fseq]. assert (is_backtick3 a = false) as -> by (unfold is_backtick3; rewrite Ka'; reflexivity). reflexivity. }
        assert (FE : forelse fembed fhighlight (StopCollapsibleEnd :: st) (m ++ z :: rest) = None).
        { rewrite Hd. unfold forelse, fembed, fhighlight. cbn [fseq]. assert (is_left_curly2 a = false) as -> by (unfold is_left_curly2; rewrite Ka'; reflexivity). assert (is_two_bangs a = false) as -> by (unfold is_two_bangs; rewrite Ka'; reflexivity). reflexivity. }
        assert (FS : fsimple (StopCollapsibleEnd :: st) (m ++ z :: rest) = (Node NUnorderedList oo kk cc, e' :: z :: rest)).
        { unfold fsimple, forelse at 1, flist0. rewrite Et. reflexivity. }
        assert (FT : stopped (StopCollapsibleEnd :: st) (m ++ z :: rest) = false).
        { rewrite Hd. apply no_stop; [constructor; [reflexivity|exact F]|rewrite Ka'; discriminate|rewrite Ka'; discriminate]. }
        rewrite FC, FO, FE, FS, FT. assert (is_terminator a = false) as FA by (unfold is_terminator; rewrite Ka'; reflexivity).
        rewrite Hd. rewrite FA. cbn [fdoc]. rewrite stop_line by assumption. reflexivity.
      + exists (YListNode (list_of s 0 (Node NUnorderedList oo kk cc))). split; [reflexivity|]. apply nest_list. exact Lt.
  Qed.
  Lemma shell_read : forall d c ts, shell d c ts -> forall st n r0 rest, all_ends st -> 3 * c + 3 <= n ->
    (r0 = [] /\ rest = [] \/ exists e, r0 = [e] /\ kind e = Eol) ->
    exists t b, fcollapsible n st (ts ++ r0 ++ rest) = CMatch t rest /\ blocks s t = [b] /\ nest (S c) d b.
  Proof.
    intros d c ts H. induction H as [a e m z A E M Z|c a e ts e' z A E H IH E' Z]; intros st n r0 rest F L R0.
    - destruct n as [|[|n]]; try lia. destruct (end_read z r0 rest Z R0) as (cl & Ec). pose proof (end_kind z Z) as [Kz Cz].
      destruct (inner_read d m M st (S n) z (r0 ++ rest) Z F ltac:(lia)) as (k & e3 & Ek & E3 & C0 & Nk).
      assert (R : exists k3, fcollapsible (S (S n)) st (a :: e :: m ++ z :: r0 ++ rest) = CMatch (Node NCollapsible [a; e] ([] ++ [Node NDocument [] k []] ++ k3) cl) rest /\ (k3 = [] \/ exists x, k3 = [Skip x])).
      { cbn [fcollapsible fseq]. rewrite A. unfold is_space_or_eol at 1. rewrite E. change (kind_eqb Eol Space || kind_eqb Eol Eol) with true. cbv iota.
        unfold fmodifier. rewrite C0. cbn [opt_tree]. rewrite C0. rewrite Ek. destruct E3 as [->|(x & -> & Kx)]; cbn [app].
        - unfold is_eol at 1. rewrite Kz. change (kind_eqb CollapsibleEnd Eol) with false. cbv iota. rewrite Ec. exists []. split; [reflexivity|left; reflexivity].
        - unfold is_eol at 1. rewrite Kx. change (kind_eqb Eol Eol) with true. cbv iota. rewrite Ec. exists [Skip [x]]. split; [reflexivity|right; eauto]. }
      destruct R as (k3 & R & K3).
      exists (Node NCollapsible [a; e] ([] ++ [Node NDocument [] k []] ++ k3) cl), (YCollapsible [] (flat_map (blocks s) k)).
      split; [cbn [app]; rewrite <- app_assoc; exact R|split].
      + destruct K3 as [->|(x & ->)]; cbn [blocks child_text app flat_map]; rewrite !app_nil_r; reflexivity.
      + destruct d as [|d]; [apply nest_collapsible|]. destruct Nk as (b & Eb & Nb). rewrite Eb. apply nest_inside with (n := b); [left; reflexivity|exact Nb].
    - destruct n as [|[|n]]; try lia. destruct (end_read z r0 rest Z R0) as (cl & Ec). pose proof (end_kind z Z) as [Kz Cz].
      destruct (IH (StopCollapsibleEnd :: st) n [e'] (z :: r0 ++ rest)) as (t & b & Et & Eb & Nb); [constructor; [reflexivity|exact F]|lia|right; eauto|].
      assert (X : exists a' l, ts = a' :: l /\ is_collapsible_start a' = true) by (destruct H; eexists _, _; (split; [reflexivity|assumption])).
      destruct X as (a' & l & X & A'). pose proof (start_kind a' A') as [Ka Ca].
      assert (Fd : fdoc (S n) (StopCollapsibleEnd :: st) (ts ++ [e'] ++ z :: r0 ++ rest) = ([t], z :: r0 ++ rest)).
      { rewrite X in *. cbn [app]. cbn [fdoc]. rewrite no_stop; [|constructor; [reflexivity|exact F]|rewrite Ka; discriminate|rewrite Ka; discriminate].
        assert (is_terminator a' = false) as -> by (unfold is_terminator; rewrite Ka; reflexivity).
        assert (fcode (StopCollapsibleEnd :: st) (a' :: l ++ e' :: z :: r0 ++ rest) = None) as ->.
        { unfold fcode, ffence. cbn [fseq]. assert (is_backtick3 a' = false) as -> by (unfold is_backtick3; rewrite Ka; reflexivity). reflexivity. }
        cbn [app] in Et. rewrite Et. destruct n as [|n]; [lia|]. cbn [fdoc]. rewrite stop_end by exact Z. reflexivity. }
      eexists _, _. split; [|split].
      + cbn [app]. rewrite <- app_assoc. change ([e'; z] ++ r0 ++ rest) with ([e'] ++ z :: r0 ++ rest).
        cbn [fcollapsible]. cbn [fseq]. rewrite A. unfold is_space_or_eol at 1. rewrite E. change (kind_eqb Eol Space || kind_eqb Eol Eol) with true. cbv iota.
        assert (C0 : nth_is 0 col0 (ts ++ [e'] ++ z :: r0 ++ rest) = true) by (rewrite X; exact Ca).
        unfold fmodifier. rewrite C0. cbn [opt_tree]. rewrite C0.
        rewrite Fd. unfold is_eol at 1. rewrite Kz. change (kind_eqb CollapsibleEnd Eol) with false. cbv iota. rewrite Ec. reflexivity.
      + cbn [blocks child_text app flat_map]. rewrite !app_nil_r. reflexivity.
      + apply nest_inside with (n := b); [|exact Nb]. rewrite Eb. left. reflexivity.
  Qed.
End Read.
Lemma shell_long : forall d c ts, shell d c ts -> 3 * c + 3 <= len ts.
Proof. intros d c ts H. induction H; cbn [len]; rewrite app_length; cbn [len]; lia. Qed.
Lemma shells_document : forall d c, exists y b, deserialize (shells d c) = Ok y /\ In b (body y) /\ nest (S c) d b.
Proof.
  intros d c. pose proof (shells_tokens d c) as H. pose proof (shell_long _ _ _ H) as LL.
  destruct (shell_read (shells d c) _ _ _ H [] (3 * len (spec_tokens (shells d c)) + 4) [] []) as (t & b & Et & Eb & Nb); [constructor|lia|left; auto|].
  cbn [app] in Et. rewrite app_nil_r in Et.
  assert (E : fparse (spec_tokens (shells d c)) = [Node NDocument [] [t] []]).
  { assert (X : exists a' l, spec_tokens (shells d c) = a' :: l /\ is_collapsible_start a' = true) by (destruct H; eexists _, _; (split; [reflexivity|assumption])).
    destruct X as (a' & l & X & A'). rewrite X in *. pose proof (start_kind a' A') as [Ka Ca]. unfold fparse.
    assert (fmetadata [] (a' :: l) = None) as -> by (unfold fmetadata, fdelim; assert (is_three_dashes a' = false) as -> by (unfold is_three_dashes; rewrite Ka; reflexivity); reflexivity).
    cbn [opt_tree app]. replace (3 * len (a' :: l) + 5) with (S (3 * len (a' :: l) + 4)) by lia. cbn [fdoc]. rewrite no_stop; [|constructor|rewrite Ka; discriminate|rewrite Ka; discriminate].
    assert (is_terminator a' = false) as -> by (unfold is_terminator; rewrite Ka; reflexivity).
    assert (fcode [] (a' :: l) = None) as ->.
    { unfold fcode, ffence. cbn [fseq]. assert (is_backtick3 a' = false) as -> by (unfold is_backtick3; rewrite Ka; reflexivity). reflexivity. }
    rewrite Et. replace (3 * len (a' :: l) + 4) with (S (3 * len (a' :: l) + 3)) by lia. reflexivity. }
  eexists _, b. split; [apply deserialize_eq|]. split; [|exact Nb]. unfold document_of. rewrite E. unfold doc_of, body_of. cbn [body flat_map]. rewrite !app_nil_r, Eb. left. reflexivity.
Qed.

(** ** Lists in lists outside of collapsibles: no line end after the last item *)

Fixpoint stair_list (lvl d : nat) : ylist :=
  YList LUnordered lvl [YItem [] match d with 0 => None | S d => Some (stair_list (S lvl) d) end].
Fixpoint stair_text (lvl d : nat) : str :=
  repeat c_space lvl ++ [c_minus; c_space] ++ match d with 0 => [] | S d => c_nl :: stair_text (S lvl) d end.
Lemma stair_text_length : forall d lvl, 2 * len (stair_text lvl d) + 2 = S d * S d + 5 * S d + 2 * S d * lvl.
Proof.
  induction d as [|d IH]; intros lvl; cbn [stair_text]; rewrite !app_length, repeat_length; cbn [len]; [lia|]. specialize (IH (S lvl)). lia.
Qed.
Lemma stair_list_levels : forall d lvl, levels (S d) (stair_list lvl d).
Proof. induction d as [|d IH]; intros lvl; cbn [stair_list]; [apply levels_one|]. eapply levels_more; [left; reflexivity|apply IH]. Qed.
Lemma stair_head : forall d lvl, exists x, stair_text (S lvl) d = c_space :: x.
Proof. destruct d; cbn; eauto. Qed.
(** No line but the first starts with a marker. *)
Lemma stair_quiet : forall r d lvl, replace [c_nl; c_minus; c_space] r (stair_text lvl d) = stair_text lvl d.
Proof.
  intros r. induction d as [|d IH]; intros lvl.
  - rewrite <- (app_nil_r (stair_text lvl 0)) at 1. rewrite replace_over; [apply app_nil_r|]. cbn [stair_text app]. intros H. apply in_app_or in H. destruct H as [H|[H|[H|[]]]]; try discriminate. apply repeat_spec in H. discriminate.
  - cbn [stair_text]. rewrite app_assoc, replace_over.
    2:{ intros H. apply in_app_or in H. destruct H as [H|[H|[H|[]]]]; try discriminate. apply repeat_spec in H. discriminate. }
    rewrite replace_miss, IH; [reflexivity|]. intros z H. destruct (stair_head d lvl) as (x & E). rewrite E in H. discriminate.
Qed.
Lemma stair_display : forall d lvl, display_list (stair_list lvl d) = stair_text lvl d.
Proof.
  induction d as [|d IH]; intros lvl; cbn [stair_list stair_text display_list map join display_item flat_map app display_list_type].
  - reflexivity.
  - rewrite IH. change (nl ++ stair_text (S lvl) d) with (c_nl :: stair_text (S lvl) d).
    change (nl ++ s_ "-" ++ s_ " ") with [c_nl; c_minus; c_space]. rewrite replace_miss; [|intros z H; destruct (stair_head d lvl) as (x & E); rewrite E in H; discriminate].
    rewrite stair_quiet. reflexivity.
Qed.
Lemma empty_item : forall coll lvl outer ty, tame_item_text coll lvl outer ty [].
Proof.
  intros coll lvl outer ty. split; [repeat constructor|]. split; [intros (b & E); discriminate|]. split; [intros (b & E); destruct b; discriminate|]. intros p x j c [].
Qed.
Lemma stair_tame : forall coll d lvl outer, tame_list coll lvl outer (stair_list lvl d).
Proof.
  intros coll. induction d as [|d IH]; intros lvl outer; cbn [stair_list]; (constructor; [discriminate|]); (constructor; [|constructor]); constructor.
  - apply empty_item.
  - discriminate.
  - apply empty_item.
  - intros l E. injection E as <-. apply IH.
Qed.
Lemma stair_document : forall d, exists y b, deserialize (stair_text 0 d) = Ok y /\ In b (body y) /\ nest 0 (S d) b.
Proof.
  intros d. exists (mk_yamd None [YListNode (stair_list 0 d)]), (YListNode (stair_list 0 d)).
  split; [|split; [left; reflexivity|apply nest_list, (stair_list_levels d 0)]].
  rewrite <- stair_display. change (display_list (stair_list 0 d)) with (display_block (nested [] (YListNode (stair_list 0 d)))).
  apply (nested_round_trip [] (YListNode (stair_list 0 d))).
  - constructor.
  - apply stair_tame.
  - left. apply stair_tame.
  - exact (fun x => x).
  - exact (fun x => x).
Qed.

(** ** The shortest text for each nesting *)

Definition shortest (c d : nat) : str := match c, d with 0, 0 => [] | 0, S d => stair_text 0 d | S c, d => shells d c end.
Lemma shortest_length : forall c d, c + d <> 0 -> 2 * len (shortest c d) + 2 = 12 * c + d * d + 5 * d.
Proof. intros [|c] [|d] H; cbn [shortest]; [lia| |apply shells_length|apply shells_length]. pose proof (stair_text_length d 0). lia. Qed.
Lemma shortest_document : forall c d, c + d <> 0 -> exists y b, deserialize (shortest c d) = Ok y /\ In b (body y) /\ nest c d b.
Proof. intros [|c] [|d] H; cbn [shortest]; [lia| | |]; [apply stair_document|apply shells_document|apply shells_document]. Qed.
Lemma nest_reached : forall c d, c + d <> 0 -> exists s y n,
  deserialize s = Ok y /\ In n (body y) /\ nest c d n /\ 2 * len s + 2 = 12 * c + d * d + 5 * d.
Proof.
  intros c d H. destruct (shortest_document c d H) as (y & n & E & I & N). exists (shortest c d), y, n. repeat split; try assumption. apply shortest_length. exact H.
Qed.
