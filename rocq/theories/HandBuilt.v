(** [try_to_yamd] on op streams that no parser made. *)
From Verif Require Import Base Lexer Ops StreamSpec Ast ToYamd.

(** Numbers of starts and ends. *)
Definition starts (ks : list op_kind) : nat := length (filter (fun k => match k with Start _ => true | _ => false end) ks).
Definition ends (ks : list op_kind) : nat := length (filter (fun k => match k with End _ => true | _ => false end) ks).
Definition depth_balanced (ks : list op_kind) : Prop :=
  (forall p q, ks = p ++ q -> ends p <= starts p) /\ ends ks = starts ks.

(** The contents that [try_to_yamd] reads: those of values and of heading starts. *)
Definition read_content (k : op_kind) : bool := match k with Value | Start NHeading => true | _ => false end.
Definition readable (source : str) (o : op) : Prop :=
  read_content (op_kind_of o) = true -> exists x, as_str source (op_content o) = Ok x.

(** What matters of a stack: its depth and the places of [FYamd]. *)
Definition skeleton (s : stack) : list bool := map (fun f => match f with FYamd _ _ => true | _ => false end) s.

Lemma step_start_skeleton : forall src n c s, readable src (mk_op (Start n) c) ->
  exists s', step_start src n c s = Ok (Some s') /\ skeleton s' = false :: skeleton s.
Proof.
  intros src n c s R. destruct n; cbn; unfold ok; try (eexists; split; reflexivity).
  destruct (R eq_refl) as (x & E). unfold extract_heading_level. cbn in E. rewrite E. cbn. eexists; split; reflexivity.
Qed.

Lemma step_value_skeleton : forall src c s, readable src (mk_op Value c) ->
  match s with
  | [] => step_value src c s = Ok None
  | _ => exists s', step_value src c s = Ok (Some s') /\ skeleton s' = skeleton s
  end.
Proof.
  intros src c s R. destruct (R eq_refl) as (x & E). cbn in E. unfold step_value. rewrite E. cbn.
  destruct s as [|[] s]; [reflexivity|..]; eexists; split; reflexivity.
Qed.

Lemma step_end_skeleton : forall n f g s,
  exists s', step_end_frame n f (g :: s) = Ok (Some s') /\ skeleton s' = skeleton (g :: s).
Proof.
  intros n f g s. destruct n, f; cbn [step_end_frame]; unfold ok, finish_list, push_into_paragraph, push_yamd_node;
    try (eexists; split; reflexivity); destruct g; eexists; split; reflexivity.
Qed.

Lemma step_end_last : forall n f, step_end_frame n f [] = Ok None \/ step_end_frame n f [] = Ok (Some []).
Proof. intros n f. destruct n, f; cbn; auto. Qed.

(** The root frame is at the bottom and nowhere else. *)
Definition rooted (d : nat) (s : stack) : Prop := skeleton s = repeat false d ++ [true].
Definition rootless (s : stack) : Prop := exists d, skeleton s = repeat false d.

Lemma rooted_cons : forall d s, rooted d s -> exists f r, s = f :: r.
Proof. intros d [|f r] H; [destruct d; discriminate|eauto]. Qed.

Lemma run_rootless : forall src l s, Forall (readable src) l -> rootless s ->
  run src l s = Ok None \/ exists s', run src l s = Ok (Some s') /\ rootless s'.
Proof.
  intros src l. induction l as [|[k c] l IH]; intros s F (d & H); [right; exists s; split; [reflexivity|exists d; exact H]|].
  inversion F as [|? ? R F']; subst. cbn [run]. unfold step. cbn [op_kind_of op_content].
  assert (K : forall s', rootless s' -> run src l s' = Ok None \/ exists s'', run src l s' = Ok (Some s'') /\ rootless s'') by (intros; apply IH; auto).
  destruct k as [n|n|].
  - destruct (step_start_skeleton src n c s R) as (s' & -> & E). cbn [bind]. apply K. exists (S d). rewrite E, H. reflexivity.
  - unfold step_end. destruct s as [|f [|g r]]; [left; reflexivity| |].
    + destruct (step_end_last n f) as [-> | ->]; [left; reflexivity|]. cbn. apply K. exists 0. reflexivity.
    + destruct (step_end_skeleton n f g r) as (s' & -> & E). cbn [bind]. apply K. destruct d as [|d]; [discriminate|]. injection H as _ H.
      exists d. rewrite E. exact H.
  - pose proof (step_value_skeleton src c s R) as V. destruct s as [|f r]; [rewrite V; left; reflexivity|].
    destruct V as (s' & -> & E). cbn [bind]. apply K. exists d. congruence.
Qed.

Lemma starts_cons : forall k ks, starts (k :: ks) = (match k with Start _ => 1 | _ => 0 end) + starts ks.
Proof. intros [] ks; reflexivity. Qed.
Lemma ends_cons : forall k ks, ends (k :: ks) = (match k with End _ => 1 | _ => 0 end) + ends ks.
Proof. intros [] ks; reflexivity. Qed.

Definition stays (d : nat) (ks : list op_kind) : Prop := forall p q, ks = p ++ q -> ends p <= d + starts p.

Lemma run_rooted : forall src l d s, Forall (readable src) l -> rooted d s ->
  (stays d (map op_kind_of l) /\ exists s', run src l s = Ok (Some s') /\
       ends (map op_kind_of l) <= d + starts (map op_kind_of l) /\ rooted (d + starts (map op_kind_of l) - ends (map op_kind_of l)) s')
  \/ (~ stays d (map op_kind_of l) /\ (run src l s = Ok None \/ exists s', run src l s = Ok (Some s') /\ rootless s')).
Proof.
  intros src l. induction l as [|[k c] l IH]; intros d s F H.
  - left. split; [intros p q E; destruct p; [cbn; lia|discriminate]|]. exists s. split; [reflexivity|]. cbn. split; [lia|]. rewrite Nat.add_0_r, Nat.sub_0_r. exact H.
  - inversion F as [|? ? R F']; subst. cbn [run map]. unfold step. cbn [op_kind_of op_content]. rewrite starts_cons, ends_cons.
    assert (K : forall d' s', rooted d' s' ->
        d' + match k with End _ => 1 | _ => 0 end = d + match k with Start _ => 1 | _ => 0 end ->
       (stays d (k :: map op_kind_of l) /\ exists s'', run src l s' = Ok (Some s'') /\
           match k with End _ => 1 | _ => 0 end + ends (map op_kind_of l) <= d + (match k with Start _ => 1 | _ => 0 end + starts (map op_kind_of l)) /\
           rooted (d + (match k with Start _ => 1 | _ => 0 end + starts (map op_kind_of l)) - (match k with End _ => 1 | _ => 0 end + ends (map op_kind_of l))) s'')
       \/ (~ stays d (k :: map op_kind_of l) /\ (run src l s' = Ok None \/ exists s'', run src l s' = Ok (Some s'') /\ rootless s''))).
    { intros d' s' H' E. destruct (IH d' s' F' H') as [(St & s'' & E1 & Le & E2)|(St & X)].
      - left. split.
        + intros p q Ep. destruct p as [|k' p]; [cbn; lia|]. injection Ep as <- Ep. rewrite starts_cons, ends_cons. specialize (St p q Ep). lia.
        + exists s''. split; [exact E1|]. split; [lia|].
          replace (d + _ - _) with (d' + starts (map op_kind_of l) - ends (map op_kind_of l)) by lia. exact E2.
      - right. split; [|exact X]. intros B. apply St. intros p q Ep. specialize (B (k :: p) q ltac:(cbn; congruence)).
        rewrite starts_cons, ends_cons in B. lia. }
    destruct k as [n|n|].
    + destruct (step_start_skeleton src n c s R) as (s' & -> & E). cbn [bind]. apply (K (S d)); [|lia]. unfold rooted. rewrite E, H. reflexivity.
    + destruct (rooted_cons d s H) as (f & r & ->). cbn [step_end]. destruct d as [|d].
      * right. split. { intros B. specialize (B [End n] (map op_kind_of l) eq_refl). cbn in B. lia. }
        assert (r = []) by (destruct r; [reflexivity|discriminate]). subst r.
        destruct (step_end_last n f) as [-> | ->]; [left; reflexivity|]. cbn. apply run_rootless; [exact F'|]. exists 0. reflexivity.
      * destruct r as [|g r]; [destruct d; discriminate|]. destruct (step_end_skeleton n f g r) as (s' & -> & E). cbn [bind].
        apply (K d); [|lia]. unfold rooted. rewrite E. injection H as _ H. exact H.
    + pose proof (step_value_skeleton src c s R) as V. destruct (rooted_cons d s H) as (f & r & ->).
      destruct V as (s' & -> & E). cbn [bind]. apply (K d); [|lia]. unfold rooted. congruence.
Qed.

Lemma rooted_top : forall d s, rooted d s ->
  exists f r, s = f :: r /\ (match f with FYamd _ _ => d = 0 | _ => d <> 0 end).
Proof.
  intros d [|f r] H; [destruct d; discriminate|]. exists f, r. split; [reflexivity|].
  destruct d, f; cbn in H; try discriminate; auto.
Qed.

Lemma try_balanced : forall src l, Forall (readable src) l ->
  (depth_balanced (map op_kind_of l) -> exists y, try_to_yamd l src = Ok (Some y))
  /\ (~ depth_balanced (map op_kind_of l) -> try_to_yamd l src = Ok None).
Proof.
  intros src l F. unfold try_to_yamd.
  destruct (run_rooted src l 0 [FYamd None []] F eq_refl) as [(St & s' & E & Le & Rt)|(St & X)].
  - rewrite E. cbn [bind]. destruct (rooted_top _ _ Rt) as (f & r & -> & T). split.
    + intros [_ B]. rewrite B in T. destruct f; try (exfalso; lia). eexists. reflexivity.
    + intros B. destruct f; try reflexivity. exfalso. apply B. split; [intros p q Ep; apply (St p q Ep)|lia].
  - split; [intros [B _]; contradiction|]. intros _. destruct X as [-> |(s' & -> & (d & R))]; [reflexivity|]. cbn.
    destruct s' as [|f r]; [reflexivity|]. destruct d; [discriminate|]. destruct f; try reflexivity. discriminate.
Qed.

Lemma mismatch_accepted : exists l src y n m,
  map op_kind_of l = [Start n; End m] /\ n <> m /\ try_to_yamd l src = Ok (Some y).
Proof.
  exists [mk_op (Start NParagraph) (Span 0 0); mk_op (End NCode) (Span 0 0)], [], (mk_yamd None []), NParagraph, NCode.
  split; [reflexivity|]. split; [discriminate|reflexivity].
Qed.

(** Headings and embeds made by hand, with texts that the parser does not write. *)
Lemma count_hashes_repeat k r : (forall r', r <> c_hash :: r') -> count_hashes (repeat c_hash k ++ r) = k.
Proof.
  intros N. induction k as [|k IH]; cbn [repeat app count_hashes].
  - destruct r as [|c r]; [reflexivity|]. cbn [count_hashes]. destruct (char_eqb c c_hash) eqn:E; [|reflexivity].
    apply N.eqb_eq in E. subst c. contradiction (N r). reflexivity.
  - unfold char_eqb. rewrite N.eqb_refl, IH. reflexivity.
Qed.

Lemma as_u8_mod n : as_u8 n = n mod 256.
Proof. unfold as_u8. rewrite N2Nat.inj_mod, Nat2N.id. reflexivity. Qed.

Lemma hand_heading : forall src c k r e f, as_str src c = Ok (repeat c_hash k ++ r) -> (forall r', r <> c_hash :: r') ->
  to_yamd [mk_op (Start NDocument) e; mk_op (Start NHeading) c; mk_op (End NHeading) e; mk_op (End NDocument) f] src
  = Ok (mk_yamd None [YHeading (k mod 256) []]).
Proof.
  intros src c k r e f E N. unfold to_yamd, try_to_yamd. cbn [run step op_kind_of op_content step_start from_node bind ok].
  unfold extract_heading_level. rewrite E. cbn [bind ok]. rewrite count_hashes_repeat by exact N. rewrite as_u8_mod.
  generalize (k mod 256). intros n. reflexivity.
Qed.

Lemma run_values src : forall cs ts vs l st, Forall2 (fun c t => as_str src c = Ok t) cs ts ->
  run src (map (mk_op Value) cs ++ l) (FEmbed vs :: st) = run src l (FEmbed (vs ++ ts) :: st).
Proof.
  intros cs ts vs l st H. revert vs. induction H as [|c t cs ts E H IH]; intros vs; cbn [map app].
  - rewrite app_nil_r. reflexivity.
  - cbn [run step op_kind_of op_content]. unfold step_value. rewrite E. cbn [bind ok]. rewrite IH, <- app_assoc. reflexivity.
Qed.

Lemma hand_embed : forall src cs ts e f, Forall2 (fun c t => as_str src c = Ok t) cs ts ->
  to_yamd (mk_op (Start NDocument) e :: mk_op (Start NEmbed) e :: map (mk_op Value) cs ++ [mk_op (End NEmbed) f; mk_op (End NDocument) f]) src
  = Ok (mk_yamd None [YEmbed (nth 0 ts []) (nth 2 ts [])]).
Proof.
  intros src cs ts e f H. unfold to_yamd, try_to_yamd. cbn [run step op_kind_of op_content step_start from_node bind ok].
  rewrite (run_values src cs ts [] _ _ H). reflexivity.
Qed.
