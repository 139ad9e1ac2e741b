(** [tame_doc] is decidable: a boolean checker that agrees with it. *)
From Coq Require Import Bool.
From Verif Require Import Base Ops StreamSpec Ast AstSpec Tame Runs.

Definition inb (c : char) (x : str) : bool := existsb (char_eqb c) x.
Fixpoint hasb (p x : str) : bool := starts_with p x || match x with [] => false | _ :: x' => hasb p x' end.
Definition close_line : str := [c_nl; c_percent; c_rcurly].
Definition isnil {A} (l : list A) : bool := match l with [] => true | _ => false end.
Fixpoint no_neighboursb {A} (bad : A -> A -> bool) (l : list A) : bool :=
  match l with p :: ((q :: _) as l') => negb (bad p q) && no_neighboursb bad l' | _ => true end.

Definition inner_textb (coll : bool) (x : str) : bool :=
  negb (inb c_cr x) && runsb 0 x && negb (coll && hasb close_line x).
Definition tame_boldb (coll : bool) (b : bold_node) : bool :=
  match b with
  | BText x | BStrike x => negb (isnil x) && inner_textb coll x
  | BItalic x => inner_textb coll x
  end.
Definition tame_inlineb (coll : bool) (p : par_node) : bool :=
  match p with
  | PText x => negb (isnil x) && negb (inb c_cr x)
  | PItalic x => inner_textb coll x
  | PStrike x | PEmphasis x | PCodeSpan x => negb (isnil x) && inner_textb coll x
  | PAnchor t u => inner_textb coll t && inner_textb coll u
  | PBold l => negb (isnil l) && forallb (tame_boldb coll) l && no_neighboursb (both is_btext) l && no_neighboursb (both is_bstrike) l
  end.
Definition tame_inlinesb (coll : bool) (l : list par_node) : bool :=
  forallb (tame_inlineb coll) l && no_neighboursb (both is_ptext) l && no_neighboursb fuse l.

Definition like_headingb (x : str) : bool :=
  (2 <=? leading c_hash x) && (leading c_hash x <=? 6) && (leading c_space (skipn (leading c_hash x) x) =? 1).
Fixpoint images_afterb (l : list par_node) : bool :=
  match l with
  | [] => true
  | [PText x] => str_eqb x [c_nl]
  | PText x :: PAnchor _ _ :: r => str_eqb x [c_nl; c_bang] && images_afterb r
  | _ => false
  end.
Definition like_imagesb (l : list par_node) : bool :=
  match l with PText x :: PAnchor _ _ :: r => str_eqb x [c_bang] && images_afterb r | _ => false end.
Definition plain_firstb (l : list par_node) : bool := negb (like_headingb (first_text l)) && negb (like_imagesb l).
Definition tame_paragraphb (coll : bool) (l : list par_node) : bool := negb (isnil l) && tame_inlinesb coll l && plain_firstb l.
Definition tame_headb (coll : bool) (h : head_node) : bool :=
  match h with
  | HText x => negb (isnil x) && inner_textb coll x
  | HAnchor t u => inner_textb coll t && inner_textb coll u
  end.
(** [x] starts with a title up to the first [closing] bracket, and a destination. *)
Fixpoint titleb (x : str) : bool :=
  match x with
  | [] => false
  | c :: x' => if char_eqb c c_rsquare then match x' with d :: x2 => char_eqb d c_lparen && inb c_rparen x2 | [] => false end else titleb x'
  end.
Fixpoint opensb (x y : str) : bool :=
  match x with [] => false | c :: x' => char_eqb c c_lsquare && titleb (x' ++ y) || opensb x' y end.
Fixpoint linklessb (l : list head_node) : bool :=
  match l with
  | [] => true
  | HText x :: r => negb (opensb x (match r with [] => [] | _ => [c_lsquare; c_rsquare; c_lparen; c_rparen] end)) && linklessb r
  | HAnchor _ _ :: r => linklessb r
  end.
Definition tame_headingb (coll : bool) (level : nat) (l : list head_node) : bool :=
  (1 <=? level) && (level <=? 6) && forallb (tame_headb coll) l && no_neighboursb (both is_htext) l && linklessb l
  && match l with HText x :: _ => negb (starts_with [c_space] x) | _ => true end.
Definition tame_imageb (coll : bool) (i : image_node) : bool := inner_textb coll (alt i) && inner_textb coll (src i).
Definition starts_nlb (x : str) : bool := starts_with [c_nl] x.
Definition ends_nlb (x : str) : bool := ends_with_char c_nl x.
Definition tame_codeb (lang code : str) : bool :=
  negb (inb c_cr lang) && negb (inb c_cr code) && negb (starts_nlb code) && negb (ends_nlb code).
Definition tame_embedb (coll : bool) (kind args : str) : bool :=
  negb (inb c_cr kind) && negb (inb c_cr args) && negb (coll && hasb close_line kind).
Definition tame_lineb (x : str) : bool := negb (inb c_nl x) && negb (inb c_cr x) && negb (starts_with [c_space] x).
Definition tame_line_optb (o : option str) : bool := match o with Some x => tame_lineb x | None => true end.
Definition is_none {A} (o : option A) : bool := match o with None => true | _ => false end.
Definition tame_hparb (coll : bool) (p : list par_node) : bool := negb (isnil p) && tame_inlinesb coll p && negb (ends_nlb (last_text p)).
Definition one_nlb (x : str) : bool := leading c_nl x =? 1.
(** [k]: the line feeds before [x]. *)
Fixpoint brokenb (text : bool) (k : nat) (x : str) : bool :=
  match x with
  | [] => false
  | d :: x' => (char_eqb d c_nl && negb (text && (starts_with [c_nl] x' || Nat.odd k))) || brokenb text (if char_eqb d c_nl then S k else 0) x'
  end.
Definition like_iconb (p : list par_node) (r : list (list par_node)) : bool :=
  starts_with [c_bang; c_space] (first_text p) && negb (starts_with [c_bang; c_space; c_space] (first_text p))
  && (isnil r || existsb (fun q => existsb (brokenb (is_ptext q) 0) (strings q)) p).
Definition tame_highlightb (coll : bool) (title icon : option str) (ps : list (list par_node)) : bool :=
  tame_line_optb title && tame_line_optb icon
  && match ps with
     | p :: r => tame_hparb coll p && forallb (fun q => isnil q || tame_hparb coll q) r && negb (one_nlb (first_text p)) && negb (is_none icon && like_iconb p r)
     | [] => negb (is_none title) && is_none icon
     end.
Definition markb (j : nat) (c : char) (x : str) : bool :=
  starts_with (repeat c_space j ++ [c; c_space]) x && negb (starts_with [c_space] (skipn (j + 2) x)).
Fixpoint marked_lineb (text : bool) (j : nat) (c : char) (k : nat) (x : str) : bool :=
  match x with
  | [] => false
  | d :: x' => (char_eqb d c_nl && markb j c x' && negb (text && Nat.odd k)) || marked_lineb text j c (if char_eqb d c_nl then S k else 0) x'
  end.
Definition item_textb (coll : bool) (level : nat) (outer : list char) (ty : list_type) (t : list par_node) : bool :=
  tame_inlinesb coll t && negb (starts_with [c_space] (first_text t)) && negb (ends_nlb (last_text t))
  && forallb (fun p => forallb (fun x => forallb (fun j => forallb (fun c =>
       negb ((negb (j =? level) || char_eqb c (mchar ty)) && (negb (j =? 0) || negb (inb c (mchar ty :: outer)))
             && marked_lineb (is_ptext p) j c 0 x)) [c_minus; c_plus]) (seq 0 (S (S level)))) (strings p)) t.
Fixpoint tame_listb (coll : bool) (level : nat) (outer : list char) (l : ylist) : bool :=
  match l with
  | YList ty level' items =>
      (level' =? level) && negb (isnil items)
      && forallb (fun it => match it with YItem t nested =>
           item_textb coll level outer ty t
           && match nested with Some l' => tame_listb coll (S level) (mchar ty :: outer) l' | None => true end end) items
  end.
Definition block_starts_nlb (y : ynode) : bool := match y with YParagraph l => one_nlb (first_text l) | _ => false end.
Definition block_ends_nlb (y : ynode) : bool :=
  match y with YParagraph l => Nat.odd (leading c_nl (rev (last_text l))) | YHeading _ l => ends_nlb (last_head l) | _ => false end.
Fixpoint tame_blockb (coll : bool) (y : ynode) : bool :=
  match y with
  | YParagraph l => tame_paragraphb coll l
  | YHeading level l => tame_headingb coll level l
  | YImage i => tame_imageb coll i
  | YImages l => (2 <=? length l) && forallb (tame_imageb coll) l
  | YCode lang code => tame_codeb lang code
  | YListNode l => tame_listb coll 0 [] l
  | YHighlight t i ps => tame_highlightb coll t i ps
  | YThematicBreak => true
  | YEmbed kind args => tame_embedb coll kind args
  | YCollapsible title b =>
      tame_lineb title && forallb (tame_blockb true) b && forallb (fun m => negb (block_ends_nlb m)) b
      && match b with m :: _ => negb (block_starts_nlb m) | [] => true end
  end.
Fixpoint closed_bodyb (b : list ynode) : bool :=
  match b with [] => true | y :: r => match r with [] => true | _ => negb (block_ends_nlb y) && closed_bodyb r end end.
Fixpoint no_dash_line (x : str) : bool :=
  match x with [] => true | c :: x' => negb (char_eqb c c_nl && (leading c_minus x' =? 3)) && no_dash_line x' end.
Definition tame_metab (m : str) : bool :=
  negb (inb c_bslash m) && negb (inb c_cr m) && negb (starts_nlb m) && negb (ends_nlb m) && no_dash_line (c_nl :: m).
Definition tame_docb (y : yamd) : bool :=
  match metadata y with Some m => tame_metab m | None => true end && forallb (tame_blockb false) (body y) && closed_bodyb (body y).

(** ** Agreement *)

Lemma inb_ok : forall c x, reflect (In c x) (inb c x).
Proof.
  intros c x. apply iff_reflect. unfold inb. rewrite existsb_exists. split.
  - intros H. exists c. split; [exact H|apply N.eqb_refl].
  - intros (d & H & E). apply N.eqb_eq in E. subst d. exact H.
Qed.
Lemma begins_ok : forall p x, reflect (begins p x) (starts_with p x).
Proof.
  intros p x. apply iff_reflect. revert x. induction p as [|c p IH]; intros x; cbn [starts_with].
  - split; [reflexivity|]. intros _. exists x. reflexivity.
  - destruct x as [|d x]; [split; [intros (b & E); discriminate|discriminate]|]. rewrite andb_true_iff, <- IH. split.
    + intros (b & E). injection E as -> ->. split; [apply N.eqb_refl|]. exists b. reflexivity.
    + intros [E (b & ->)]. apply N.eqb_eq in E. subst d. exists b. reflexivity.
Qed.
Lemma has_ok : forall p x, reflect (has p x) (hasb p x).
Proof.
  intros p x. apply iff_reflect. induction x as [|c x IH]; cbn [hasb]; rewrite orb_true_iff.
  - destruct (begins_ok p []) as [H|H].
    + split; [auto|]. intros _. destruct H as (b & E). exists [], b. exact E.
    + split; [|intros [X|X]; discriminate]. intros (a & b & E). exfalso. apply H. exists []. destruct a as [|? ?]; [|discriminate]. cbn in E. symmetry in E. apply app_eq_nil in E. destruct E as [-> ->]. reflexivity.
  - destruct (begins_ok p (c :: x)) as [H|H].
    + split; [auto|]. intros _. destruct H as (b & E). exists [], b. exact E.
    + rewrite <- IH. split.
      * intros (a & b & E). right. destruct a as [|d a]; [exfalso; apply H; exists b; exact E|]. injection E as -> ->. exists a, b. reflexivity.
      * intros [X|(a & b & ->)]; [discriminate|]. exists (c :: a), b. reflexivity.
Qed.
Lemma isnil_ok : forall A (l : list A), reflect (l = []) (isnil l).
Proof. intros A [|x l]; constructor; congruence. Qed.
Lemma str_eqb_ok : forall a b, reflect (a = b) (str_eqb a b).
Proof.
  intros a b. apply iff_reflect. revert b. induction a as [|c a IH]; intros [|d b]; cbn [str_eqb]; try (split; congruence).
  rewrite andb_true_iff, <- IH. split; [intros E; injection E as -> ->; split; [apply N.eqb_refl|reflexivity]|]. intros [E ->]. apply N.eqb_eq in E. subst d. reflexivity.
Qed.
Lemma not_ok : forall P b, reflect P b -> reflect (~ P) (negb b).
Proof. intros P b [H|H]; constructor; auto. Qed.
Lemma and_ok : forall P Q a b, reflect P a -> reflect Q b -> reflect (P /\ Q) (a && b).
Proof. intros P Q a b [H|H] [K|K]; constructor; tauto. Qed.
Lemma imp_ok : forall P Q a b, reflect P a -> reflect Q b -> reflect (P -> ~ Q) (negb (a && b)).
Proof. intros P Q a b [H|H] [K|K]; constructor; tauto. Qed.
Lemma same_ok : forall (P Q : Prop) b, (P <-> Q) -> reflect P b -> reflect Q b.
Proof. intros P Q b H [K|K]; constructor; tauto. Qed.
Lemma true_ok : reflect True true.
Proof. constructor. exact I. Qed.
Lemma forall_ok : forall A (P : A -> Prop) f l, (forall x, reflect (P x) (f x)) -> reflect (Forall P l) (forallb f l).
Proof.
  intros A P f l H. apply iff_reflect. rewrite forallb_forall, Forall_forall. split; intros K x Hx; specialize (K x Hx); destruct (H x); congruence.
Qed.
Lemma nn_ok : forall A (bad : A -> A -> bool) l, reflect (no_neighbours bad l) (no_neighboursb bad l).
Proof.
  intros A bad l. induction l as [|p [|q l] IH]; try apply true_ok. change (reflect (bad p q = false /\ no_neighbours bad (q :: l)) (negb (bad p q) && no_neighboursb bad (q :: l))).
  apply and_ok; [|exact IH]. destruct (bad p q); constructor; congruence.
Qed.
Lemma even_runs_ok : forall x, reflect (even_runs x) (runsb 0 x).
Proof. intros x. apply iff_reflect. symmetry. apply runsb_ok. Qed.
Lemma coll_ok : forall b : bool, reflect (b = true) b.
Proof. intros []; constructor; congruence. Qed.
Lemma starts_nl_ok : forall x, reflect (starts_with_nl x) (starts_nlb x).
Proof. intros x. eapply same_ok; [|apply begins_ok]. reflexivity. Qed.
Lemma ends_nl_ok : forall x, reflect (ends_with_nl x) (ends_nlb x).
Proof.
  intros x. apply iff_reflect. unfold ends_nlb, ends_with_char, ends_with_nl. split.
  - intros (y & ->). rewrite rev_app_distr. apply N.eqb_refl.
  - destruct (rev x) as [|d r] eqn:R; [discriminate|]. intros E. apply N.eqb_eq in E. subst d. exists (rev r). rewrite <- (rev_involutive x), R. reflexivity.
Qed.
Lemma none_ok : forall A (o : option A), reflect (o = None) (is_none o).
Proof. intros A [x|]; constructor; congruence. Qed.
Ltac assoc := rewrite <- ?andb_assoc.
Ltac dec := assoc; repeat first
  [ assumption | apply true_ok | apply and_ok | apply even_runs_ok | apply imp_ok | apply not_ok | apply inb_ok | apply has_ok | apply begins_ok | apply isnil_ok | apply nn_ok
  | apply coll_ok | apply starts_nl_ok | apply ends_nl_ok | apply none_ok | apply str_eqb_ok ].

Lemma inner_text_ok : forall coll x, reflect (inner_text coll x) (inner_textb coll x).
Proof. intros coll x. unfold inner_textb, inner_text. dec. Qed.
Ltac dec2 := unfold tame_inlinesb, tame_imageb, tame_inlines, tame_image; assoc; repeat first
  [ apply inner_text_ok | assumption | apply true_ok | apply and_ok | apply imp_ok | apply not_ok | apply inb_ok | apply has_ok | apply begins_ok | apply isnil_ok | apply nn_ok
  | apply coll_ok | apply starts_nl_ok | apply ends_nl_ok | apply none_ok | apply str_eqb_ok ].
Lemma tame_bold_ok : forall coll b, reflect (tame_bold coll b) (tame_boldb coll b).
Proof. intros coll []; cbn [tame_bold tame_boldb]; dec2. Qed.
Lemma tame_inline_ok : forall coll p, reflect (tame_inline coll p) (tame_inlineb coll p).
Proof. intros coll []; cbn [tame_inline tame_inlineb]; dec2. apply forall_ok. apply tame_bold_ok. Qed.
Lemma tame_inlines_ok : forall coll l, reflect (tame_inlines coll l) (tame_inlinesb coll l).
Proof. intros coll l. dec2. apply forall_ok. apply tame_inline_ok. Qed.
Lemma le_ok : forall a b, reflect (a <= b) (a <=? b).
Proof. intros a b. apply Nat.leb_spec0. Qed.
Lemma eq_ok : forall a b, reflect (a = b) (a =? b).
Proof. intros a b. apply Nat.eqb_spec. Qed.
Lemma false_ok : reflect False false.
Proof. constructor. tauto. Qed.
Lemma images_after_ok : forall l, reflect (images_after l) (images_afterb l).
Proof.
  intros l. remember (length l) as n eqn:E. assert (L : length l <= n) by lia. clear E. revert l L. induction n as [|n IH]; intros l L; [destruct l; [apply true_ok|cbn in L; lia]|].
  destruct l as [|p l]; [apply true_ok|]. destruct p; try apply false_ok. destruct l as [|q l]; [apply str_eqb_ok|]. destruct q; try apply false_ok.
  change (reflect (s = [c_nl; c_bang] /\ images_after l) (str_eqb s [c_nl; c_bang] && images_afterb l)). apply and_ok; [apply str_eqb_ok|]. apply IH. cbn [length] in L. lia.
Qed.
Lemma plain_first_ok : forall l, reflect (plain_first l) (plain_firstb l).
Proof.
  intros l. unfold plain_first, plain_firstb. apply and_ok; apply not_ok.
  - unfold like_headingb. apply and_ok; [apply and_ok; apply le_ok|apply eq_ok].
  - destruct l as [|[] l]; try apply false_ok. destruct l as [|[] l]; try apply false_ok. apply and_ok; [apply str_eqb_ok|apply images_after_ok].
Qed.
Lemma tame_paragraph_ok : forall coll l, reflect (tame_paragraph coll l) (tame_paragraphb coll l).
Proof. intros coll l. unfold tame_paragraphb, tame_paragraph. rewrite <- andb_assoc. apply and_ok; [apply not_ok, isnil_ok|]. apply and_ok; [apply tame_inlines_ok|apply plain_first_ok]. Qed.
Lemma tame_head_ok : forall coll h, reflect (tame_head coll h) (tame_headb coll h).
Proof. intros coll []; cbn [tame_head tame_headb]; dec2. Qed.
Lemma char_eqb_ok : forall a b, reflect (a = b) (char_eqb a b).
Proof. intros a b. apply iff_reflect. symmetry. apply N.eqb_eq. Qed.
Lemma or_ok : forall P Q a b, reflect P a -> reflect Q b -> reflect (P \/ Q) (a || b).
Proof. intros P Q a b [] []; constructor; tauto. Qed.
Lemma title_ok : forall x, reflect (exists t u b, x = t ++ c_rsquare :: c_lparen :: u ++ c_rparen :: b /\ ~ In c_rsquare t) (titleb x).
Proof.
  induction x as [|c x IH]; cbn [titleb].
  - right. intros (t & u & b & E & _). destruct t; discriminate.
  - destruct (char_eqb_ok c c_rsquare) as [->|N].
    + eapply same_ok with (P := match x with d :: x2 => d = c_lparen /\ In c_rparen x2 | [] => False end).
      2:{ destruct x as [|d x]; [right; auto|]. apply and_ok; [apply char_eqb_ok|apply inb_ok]. }
      split.
      * destruct x as [|d x]; [contradiction|]. intros [-> H]. apply in_split in H. destruct H as (u & b & ->). exists [], u, b. split; [reflexivity|intros []].
      * intros (t & u & b & E & H). destruct t as [|d t]; [|injection E as <- _; exfalso; apply H; left; reflexivity].
        cbn [app] in E. apply (f_equal (@tl char)) in E. cbn [tl] in E. subst x. split; [reflexivity|]. apply in_app_iff. right. left. reflexivity.
    + eapply same_ok; [|exact IH]. split.
      * intros (t & u & b & -> & H). exists (c :: t), u, b. split; [reflexivity|]. intros [X|X]; auto.
      * intros (t & u & b & E & H). destruct t as [|d t]; [injection E as X _; congruence|]. exists t, u, b. injection E as <- E. split; [exact E|]. intros X. apply H. right. exact X.
Qed.
Lemma opens_ok : forall x y, reflect (opens_link x y) (opensb x y).
Proof.
  intros x y. induction x as [|c x IH]; cbn [opensb].
  - right. intros (a & t & u & b & _ & L & _). cbn in L. lia.
  - eapply same_ok; [|apply or_ok; [apply and_ok; [apply char_eqb_ok|apply title_ok]|exact IH]]. split.
    + intros [[-> (t & u & b & E & H)]|(a & t & u & b & E & L & H)].
      * exists [], t, u, b. cbn [app]. rewrite E. split; [reflexivity|]. split; [cbn; lia|exact H].
      * exists (c :: a), t, u, b. cbn [app]. rewrite E. split; [reflexivity|]. split; [cbn; lia|exact H].
    + intros (a & t & u & b & E & L & H). destruct a as [|d a].
      * left. injection E as -> E. split; [reflexivity|]. exists t, u, b. auto.
      * right. injection E as -> E. exists a, t, u, b. split; [exact E|]. split; [cbn in L; lia|exact H].
Qed.
Lemma linkless_ok : forall l, reflect (linkless l) (linklessb l).
Proof. induction l as [|[x|t u] l IH]; cbn [linkless linklessb]; [apply true_ok| |exact IH]. apply and_ok; [apply not_ok, opens_ok|exact IH]. Qed.
Lemma tame_heading_ok : forall coll k l, reflect (tame_heading coll k l) (tame_headingb coll k l).
Proof.
  intros coll k l. unfold tame_heading, tame_headingb. rewrite <- !andb_assoc. rewrite (andb_assoc (1 <=? k)). apply and_ok; [apply and_ok; apply le_ok|]. apply and_ok; [apply forall_ok, tame_head_ok|]. apply and_ok; [apply nn_ok|]. apply and_ok; [apply linkless_ok|].
  destruct l as [|[] l]; dec2.
Qed.
Lemma tame_image_ok : forall coll i, reflect (tame_image coll i) (tame_imageb coll i).
Proof. intros coll i. dec2. Qed.
Lemma tame_line_ok : forall x, reflect (tame_line x) (tame_lineb x).
Proof. intros x. unfold tame_line, tame_lineb. dec2. Qed.
Lemma tame_line_opt_ok : forall o, reflect (tame_line_opt o) (tame_line_optb o).
Proof. intros [x|]; [apply tame_line_ok|apply true_ok]. Qed.
Lemma tame_hpar_ok : forall coll p, reflect (tame_hpar coll p) (tame_hparb coll p).
Proof. intros coll p. unfold tame_hpar, tame_hparb. rewrite <- andb_assoc. apply and_ok; [apply not_ok, isnil_ok|]. apply and_ok; [apply tame_inlines_ok|]. dec2. Qed.
Lemma odd_ok : forall n, reflect (Nat.Odd n) (Nat.odd n).
Proof. intros n. apply iff_reflect. symmetry. apply Nat.odd_spec. Qed.
Lemma even_ok : forall n, reflect (Nat.Even n) (negb (Nat.odd n)).
Proof. intros n. apply iff_reflect. rewrite Nat.negb_odd. symmetry. apply Nat.even_spec. Qed.
Lemma broken_gen : forall text x z, reflect (exists a b, x = a ++ c_nl :: b /\ (text = true -> ~ begins [c_nl] b /\ Nat.Even (leading c_nl (rev (z ++ a))))) (brokenb text (leading c_nl (rev z)) x).
Proof.
  intros text x. induction x as [|d x IH]; intros z; cbn [brokenb].
  - constructor. intros (a & b & E & _). destruct a; discriminate.
  - replace (if char_eqb d c_nl then S (leading c_nl (rev z)) else 0) with (leading c_nl (rev (z ++ [d]))) by (rewrite rev_app_distr; reflexivity).
    assert (Q : reflect (text = true -> ~ begins [c_nl] x /\ Nat.Even (leading c_nl (rev z))) (negb (text && (starts_with [c_nl] x || Nat.odd (leading c_nl (rev z)))))).
    { eapply same_ok; [|apply imp_ok; [apply coll_ok|apply or_ok; [apply begins_ok|apply odd_ok]]]. pose proof (Nat.Even_or_Odd (leading c_nl (rev z))) as D. pose proof (Nat.Even_Odd_False (leading c_nl (rev z))) as D2. tauto. }
    eapply same_ok; [|apply or_ok; [apply and_ok; [apply char_eqb_ok|exact Q]|apply IH]]. split.
    + intros [[-> P]|(a & b & -> & P)]; [exists [], x; rewrite app_nil_r; auto|]. exists (d :: a), b. rewrite <- app_assoc in P. auto.
    + intros (a & b & E & P). destruct a as [|e a].
      * left. cbn [app] in E. rewrite app_nil_r in P. pose proof (f_equal (@tl char) E) as E2. cbn [tl] in E2. injection E as -> _. subst x. auto.
      * right. pose proof (f_equal (@tl char) E) as E2. cbn [tl app] in E2. injection E as -> _. exists a, b. rewrite <- app_assoc. auto.
Qed.
Lemma broken_ok : forall text x, reflect (broken text x) (brokenb text 0 x).
Proof. intros text x. exact (broken_gen text x []). Qed.
Lemma like_icon_ok : forall p r, reflect (like_icon p r) (like_iconb p r).
Proof.
  intros p r. unfold like_icon, like_iconb. rewrite <- andb_assoc. apply and_ok; [apply begins_ok|]. apply and_ok; [apply not_ok, begins_ok|]. apply or_ok; [apply isnil_ok|]. apply iff_reflect. rewrite existsb_exists. split.
  - intros (q & x & Hq & Hx & B). exists q. split; [exact Hq|]. apply existsb_exists. exists x. split; [exact Hx|]. destruct (broken_ok (is_ptext q) x); [reflexivity|contradiction].
  - intros (q & Hq & E). apply existsb_exists in E. destruct E as (x & Hx & B). exists q, x. split; [exact Hq|]. split; [exact Hx|]. destruct (broken_ok (is_ptext q) x); [assumption|discriminate].
Qed.
Lemma tame_highlight_ok : forall coll t i ps, reflect (tame_highlight coll t i ps) (tame_highlightb coll t i ps).
Proof.
  intros coll t i ps. unfold tame_highlight, tame_highlightb. rewrite <- !andb_assoc. apply and_ok; [apply tame_line_opt_ok|]. apply and_ok; [apply tame_line_opt_ok|].
  destruct ps as [|p ps]; [dec2|]. rewrite <- !andb_assoc. apply and_ok; [apply tame_hpar_ok|]. apply and_ok; [apply forall_ok; intros q; apply or_ok; [apply isnil_ok|apply tame_hpar_ok]|]. apply and_ok; [apply not_ok, eq_ok|]. apply imp_ok; [destruct i; constructor; congruence|apply like_icon_ok].
Qed.
Lemma mark_ok : forall j c x, reflect (exists b, x = repeat c_space j ++ c :: c_space :: b /\ ~ begins [c_space] b) (markb j c x).
Proof.
  intros j c x. unfold markb. eapply same_ok; [|apply and_ok; [apply begins_ok|apply not_ok, begins_ok]].
  assert (K : forall b, skipn (j + 2) (repeat c_space j ++ c :: c_space :: b) = b).
  { intros b. rewrite skipn_app, repeat_length. replace (j + 2 - j) with 2 by lia. rewrite skipn_all2 by (rewrite repeat_length; lia). reflexivity. }
  split.
  - intros [(b & ->) H]. rewrite <- app_assoc in H. cbn [app] in H. rewrite K in H. exists b. split; [rewrite <- app_assoc; reflexivity|exact H].
  - intros (b & -> & H). split; [exists b; rewrite <- app_assoc; reflexivity|]. rewrite K. exact H.
Qed.
Lemma marked_line_gen : forall text j c x z, reflect (exists a b, x = a ++ c_nl :: repeat c_space j ++ c :: c_space :: b /\ ~ begins [c_space] b /\ (text = true -> Nat.Even (leading c_nl (rev (z ++ a)))))
  (marked_lineb text j c (leading c_nl (rev z)) x).
Proof.
  intros text j c x. induction x as [|d x IH]; intros z; cbn [marked_lineb].
  - constructor. intros (a & b & E & _). destruct a; discriminate.
  - replace (if char_eqb d c_nl then S (leading c_nl (rev z)) else 0) with (leading c_nl (rev (z ++ [d]))) by (rewrite rev_app_distr; reflexivity).
    assert (Q : reflect (text = true -> Nat.Even (leading c_nl (rev z))) (negb (text && Nat.odd (leading c_nl (rev z))))).
    { eapply same_ok; [|apply imp_ok; [apply coll_ok|apply odd_ok]]. pose proof (Nat.Even_or_Odd (leading c_nl (rev z))) as D. pose proof (Nat.Even_Odd_False (leading c_nl (rev z))) as D2. tauto. }
    eapply same_ok; [|apply or_ok; [apply and_ok; [apply and_ok; [apply char_eqb_ok|apply mark_ok]|exact Q]|apply IH]]. split.
    + intros [[[-> (b & -> & H)] P]|(a & b & -> & H & P)]; [exists [], b; rewrite app_nil_r; auto|]. exists (d :: a), b. rewrite <- app_assoc in P. auto.
    + intros (a & b & E & H & P). destruct a as [|e a].
      * left. cbn [app] in E. rewrite app_nil_r in P. pose proof (f_equal (@tl char) E) as E2. cbn [tl] in E2. injection E as -> _. split; [split; [reflexivity|]|exact P]. exists b. auto.
      * right. pose proof (f_equal (@tl char) E) as E2. cbn [tl app] in E2. injection E as -> _. exists a, b. rewrite <- app_assoc. auto.
Qed.
Lemma marked_line_ok : forall text j c x, reflect (marked_line text j c x) (marked_lineb text j c 0 x).
Proof. intros text j c x. exact (marked_line_gen text j c x []). Qed.
Lemma item_text_dec : forall coll level outer ty t, reflect (tame_item_text coll level outer ty t) (item_textb coll level outer ty t).
Proof.
  intros coll level outer ty t. unfold tame_item_text, item_textb. rewrite <- !andb_assoc. apply and_ok; [apply tame_inlines_ok|]. apply and_ok; [dec2|]. apply and_ok; [dec2|].
  set (R := fun (p : par_node) (x : str) (j : nat) (c : char) => (j = level -> c = mchar ty) -> (j = 0 -> ~ In c (mchar ty :: outer)) -> ~ marked_line (is_ptext p) j c x).
  assert (RO : forall p x j c, reflect (R p x j c) (negb ((negb (j =? level) || char_eqb c (mchar ty)) && (negb (j =? 0) || negb (inb c (mchar ty :: outer))) && marked_lineb (is_ptext p) j c 0 x))).
  { intros p x j c. unfold R. destruct (eq_ok j level), (N.eqb_spec c (mchar ty)) as [E|E], (eq_ok j 0), (inb_ok c (mchar ty :: outer)), (marked_line_ok (is_ptext p) j c x);
      unfold char_eqb; try (rewrite (proj2 (N.eqb_eq _ _) E)); try (rewrite (proj2 (N.eqb_neq _ _) E)); cbn [negb orb andb]; constructor; tauto. }
  eapply same_ok; [|apply forall_ok; intros p; apply forall_ok; intros x; apply forall_ok; intros j; apply forall_ok; intros c; apply RO]. split.
  - intros H p x j c Hp Hx Hj Hc. rewrite Forall_forall in H. specialize (H p Hp). rewrite Forall_forall in H. specialize (H x Hx). rewrite Forall_forall in H. specialize (H j). rewrite in_seq in H. specialize (H ltac:(lia)).
    rewrite Forall_forall in H. apply (H c). destruct Hc as [->| ->]; cbn; auto.
  - intros H. apply Forall_forall. intros p Hp. apply Forall_forall. intros x Hx. apply Forall_forall. intros j Hj. apply in_seq in Hj. apply Forall_forall. intros c Hc. intros Q1 Q2; apply (H p x j c Hp Hx); [lia| |exact Q1|exact Q2]. destruct Hc as [<-|[<-|[]]]; auto.
Qed.
Lemma tame_list_dec : forall coll l level outer, reflect (tame_list coll level outer l) (tame_listb coll level outer l).
Proof.
  intros coll. fix IH 1. intros [ty lv items] level outer. cbn [tame_listb].
  assert (F : reflect (Forall (tame_item coll level outer ty) items) (forallb (fun it => match it with YItem t nested =>
           item_textb coll level outer ty t && match nested with Some l' => tame_listb coll (S level) (mchar ty :: outer) l' | None => true end end) items)).
  { induction items as [|[t nested] items IHi]; [constructor; constructor|]. cbn [forallb].
    assert (T : reflect (tame_item coll level outer ty (YItem t nested)) (item_textb coll level outer ty t && match nested with Some l' => tame_listb coll (S level) (mchar ty :: outer) l' | None => true end)).
    { eapply (same_ok (tame_item_text coll level outer ty t /\ match nested with Some l' => tame_list coll (S level) (mchar ty :: outer) l' | None => True end)).
      - split; [intros [H1 H2]; constructor; [exact H1|]; intros l ->; exact H2|]. intros H. inversion H; subst. split; [assumption|]. destruct nested; [auto|exact I].
      - apply and_ok; [apply item_text_dec|]. destruct nested as [l'|]; [apply (IH l')|apply true_ok]. }
    eapply same_ok; [|apply and_ok; [exact T|exact IHi]]. split; [intros [H1 H2]; constructor; assumption|]. intros H. inversion H; auto. }
  clear IH. eapply (same_ok ((lv = level /\ items <> []) /\ Forall (tame_item coll level outer ty) items)).
  - split; [intros [[-> H] K]; constructor; assumption|]. intros H. inversion H; subst. auto.
  - apply and_ok; [|exact F]. apply and_ok; [apply eq_ok|apply not_ok, isnil_ok].
Qed.
Lemma block_ends_ok : forall y, reflect (block_ends_nl y) (block_ends_nlb y).
Proof. intros []; try apply ends_nl_ok; try apply odd_ok; constructor; tauto. Qed.
Lemma block_starts_ok : forall y, reflect (block_starts_nl y) (block_starts_nlb y).
Proof. intros []; try apply eq_ok; constructor; tauto. Qed.
Lemma tame_block_ok : forall y coll, reflect (tame_block coll y) (tame_blockb coll y).
Proof.
  fix IH 1. intros y coll. destruct y as [l|k l|i|l|lang code|l|t i ps| |kind args|title b]; cbn [tame_block tame_blockb].
  - apply tame_paragraph_ok.
  - apply tame_heading_ok.
  - apply tame_image_ok.
  - apply and_ok; [apply le_ok|apply forall_ok, tame_image_ok].
  - unfold tame_code, tame_codeb. dec2.
  - apply tame_list_dec.
  - apply tame_highlight_ok.
  - apply true_ok.
  - unfold tame_embed, tame_embedb. dec2.
  - rewrite <- !andb_assoc. apply and_ok; [apply tame_line_ok|]. apply and_ok.
    + induction b as [|m b IHb]; [apply true_ok|]. cbn [map fold_right forallb]. apply and_ok; [apply IH|exact IHb].
    + clear IH. apply and_ok; [apply forall_ok; intros m; apply not_ok, block_ends_ok|]. destruct b; [apply true_ok|apply not_ok, block_starts_ok].
Qed.
Lemma closed_body_ok : forall b, reflect (closed_body b) (closed_bodyb b).
Proof.
  induction b as [|y [|z b] IH]; try apply true_ok. change (reflect (~ block_ends_nl y /\ closed_body (z :: b)) (negb (block_ends_nlb y) && closed_bodyb (z :: b))).
  apply and_ok; [apply not_ok, block_ends_ok|exact IH].
Qed.
Lemma no_dash_line_ok : forall x, reflect (forall a b, x = a ++ c_nl :: b -> leading c_minus b <> 3) (no_dash_line x).
Proof.
  induction x as [|c x IH]; cbn [no_dash_line].
  - constructor. intros [|? ?] b E; discriminate.
  - eapply same_ok; [|apply and_ok; [apply imp_ok; [apply coll_ok|apply eq_ok]|exact IH]]. split.
    + intros [H1 H2] [|d a] b E; [injection E as -> ->; apply H1; reflexivity|]. injection E as -> ->. exact (H2 a b eq_refl).
    + intros H. split; [intros E; apply N.eqb_eq in E; subst c; exact (H [] x eq_refl)|]. intros a b ->. exact (H (c :: a) b eq_refl).
Qed.
Lemma tame_meta_ok : forall m, reflect (tame_meta m) (tame_metab m).
Proof. intros m. unfold tame_meta, tame_metab. dec2. apply no_dash_line_ok. Qed.

Lemma tame_doc_ok : forall y, reflect (tame_doc y) (tame_docb y).
Proof.
  intros [m b]. unfold tame_doc, tame_docb. cbn [metadata body]. rewrite <- andb_assoc. apply and_ok; [destruct m; [apply tame_meta_ok|apply true_ok]|].
  apply and_ok; [apply forall_ok; intros y; apply tame_block_ok|apply closed_body_ok].
Qed.
Lemma tame_docb_iff : forall y, tame_docb y = true <-> tame_doc y.
Proof. intros y. symmetry. apply reflect_iff. apply tame_doc_ok. Qed.
Lemma tame_blockb_iff : forall coll y, tame_blockb coll y = true <-> tame_block coll y.
Proof. intros coll y. symmetry. apply reflect_iff. apply tame_block_ok. Qed.
