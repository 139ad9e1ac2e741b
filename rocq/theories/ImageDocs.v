(** Every normal document is read from its text of NormalSpec.v. *)
From Coq Require Import String.
From Verif Require Import Base Lexer LexSpec LexProofs LexFacts Ops Parser FParser TokFacts ToYamd TreeAst Api Ast AstSpec NormalSpec Tame Units ULex Stops Inline AstUnits Calm Blocks Docs Highlight Lists ImageInline ImageLists ImageHighlight.

Definition eh (h : head_node) : uitem := match h with HText x => UText (eu x) | HAnchor t u => UAnchor (eu t) (eu u) end.
Definition ei (i : image_node) : list uchar * list uchar := (eu (alt i), eu (src i)).

Fixpoint e_node (n : ynode) : list uchar :=
  match n with
  | YParagraph b => uflats (eps b)
  | YHeading l b => repeat (raw c_hash) l ++ [raw c_space] ++ uflats (map eh b)
  | YImage i => uimages [ei i]
  | YImages l => uimages (map ei l)
  | YCode lang code => fence ++ eu lang ++ [raw c_nl] ++ eu code ++ [raw c_nl] ++ fence
  | YListNode l => e_list l
  | YHighlight ot oi ps => e_highlight ot oi ps
  | YThematicBreak => repeat (raw c_minus) 5
  | YEmbed kind args => lcurly2 ++ eu kind ++ [raw c_pipe] ++ eu args ++ rcurly2
  | YCollapsible title b => cstart ++ [raw c_space] ++ eu title ++ [raw c_nl] ++ ujoin (map e_node b) ++ [raw c_nl] ++ cend
  end.

(** ** The text of the units *)

Lemma render_nl : forall us, render (raw c_nl :: us) = (nl ++ render us)%list.
Proof. reflexivity. Qed.
Lemma images_render : forall l, render (uimages (map ei l)) = between nl (map src_image l).
Proof.
  induction l as [|i l IH]; [reflexivity|]. cbn [map uimages between]. rewrite render_app.
  assert (E : render (uimage (ei i)) = src_image i) by (unfold uimage, ei; cbn [fst snd]; change (render (raw c_bang :: ulink (eu (alt i)) (eu (src i)))) with (s_ "!" ++ render (ulink (eu (alt i)) (eu (src i))))%list; rewrite link_render; reflexivity).
  rewrite E. f_equal. destruct l as [|j l]; [reflexivity|]. cbn [map] in *. rewrite render_nl, IH. reflexivity.
Qed.
Lemma heads_render : forall b, render (uflats (map eh b)) = flat_map src_head b.
Proof.
  unfold uflats. induction b as [|h b IH]; [reflexivity|]. cbn [map flat_map]. rewrite render_app, IH. f_equal. destruct h; cbn [eh uflat src_head]; [apply eu_render|apply link_render].
Qed.
Lemma e_node_render : forall n, render (e_node n) = src_node n.
Proof.
  fix IH 1. intros [b|l b|i|l|lang code|l|ot oi ps| |kind args|title b].
  - apply eps_render.
  - cbn [e_node src_node]. rewrite !render_app, raws_render, heads_render. reflexivity.
  - change (render (uimages (map ei [i])) = src_image i). rewrite images_render. cbn [map between]. apply app_nil_r.
  - apply images_render.
  - cbn [e_node src_node]. rewrite !render_app, !eu_render. reflexivity.
  - apply e_list_render.
  - apply e_highlight_render.
  - reflexivity.
  - cbn [e_node src_node]. rewrite !render_app, !eu_render. reflexivity.
  - cbn [e_node src_node]. rewrite !render_app, eu_render, join_render, map_map.
    replace (map (fun x => render (e_node x)) b) with (map src_node b) by (clear title; induction b as [|n b IHb]; [reflexivity|]; cbn [map]; rewrite IHb, IH; reflexivity). reflexivity.
Qed.

(** ** No carriage returns, no backslashes *)

Lemma fine_raws : forall l, ~ In c_cr l -> ~ In c_bslash l -> fine (map raw l).
Proof.
  intros l H1 H2. split.
  - apply Forall_map, Forall_forall. intros c Hc _ E. cbn in E. subst. contradiction.
  - intros X. apply in_map_iff in X. destruct X as (c & E & Hc). injection E as ->. contradiction.
Qed.
Lemma fine_nil : fine [].
Proof. exact (fine_raws [] (fun H => H) (fun H => H)). Qed.
Ltac fraws l := apply (fine_raws l); nodelim.
Lemma fine_repeat : forall c k, c <> c_cr -> c <> c_bslash -> fine (repeat (raw c) k).
Proof.
  intros c k H1 H2. split.
  - apply Forall_forall. intros u Hu _ E. apply repeat_spec in Hu. subst u. contradiction.
  - intros X. apply repeat_spec in X. injection X as X. congruence.
Qed.
Lemma fine_join1 : forall l, Forall fine l -> fine (ujoin1 l).
Proof.
  induction l as [|a l IH]; intros F; [apply fine_nil|]. inversion F as [|? ? Fa Fl]; subst. cbn [ujoin1]. apply fine_app. split; [exact Fa|]. destruct l as [|b l]; [apply fine_nil|].
  change (raw c_nl :: ujoin1 (b :: l)) with ([raw c_nl] ++ ujoin1 (b :: l)). apply fine_app. split; [fraws [c_nl]|exact (IH Fl)].
Qed.
Lemma fine_join : forall l, Forall fine l -> fine (ujoin l).
Proof.
  induction l as [|a l IH]; intros F; [apply fine_nil|]. inversion F as [|? ? Fa Fl]; subst. cbn [ujoin]. apply fine_app. split; [exact Fa|]. destruct l as [|b l]; [apply fine_nil|].
  change (raw c_nl :: raw c_nl :: ujoin (b :: l)) with ([raw c_nl; raw c_nl] ++ ujoin (b :: l)). apply fine_app. split; [fraws [c_nl; c_nl]|exact (IH Fl)].
Qed.
Lemma fine_list : forall l, fine (e_list l).
Proof.
  fix IH 1. intros [ty L items]. rewrite e_list_eq. apply fine_join1. induction items as [|[t nested] items IHl]; [constructor|]. cbn [map]. constructor; [|exact IHl]. clear IHl. cbn [e_item].
  apply fine_app. split; [apply fine_repeat; discriminate|].
  match goal with |- fine (raw ?a :: raw ?b :: ?x) => change (raw a :: raw b :: x) with ([raw a; raw b] ++ x) end.
  apply fine_app. split; [destruct ty; [fraws [c_minus; c_space]|fraws [c_plus; c_space]]|]. apply fine_app. split; [apply clean_fine, clean_eps|]. destruct nested as [l|]; [|apply fine_nil].
  change (raw c_nl :: e_list l) with ([raw c_nl] ++ e_list l). apply fine_app. split; [fraws [c_nl]|apply IH].
Qed.
Lemma fine_images : forall l, fine (uimages (map ei l)).
Proof.
  induction l as [|i l IH]; [apply fine_nil|]. cbn [map uimages]. apply fine_app. split.
  - unfold uimage, ei. cbn [fst snd]. change (raw c_bang :: ulink (eu (alt i)) (eu (src i))) with ([raw c_bang] ++ ulink (eu (alt i)) (eu (src i))). apply fine_app. split; [fraws [c_bang]|apply clean_fine, clean_link].
  - destruct l as [|j l]; [apply fine_nil|]. change (raw c_nl :: uimages (map ei (j :: l))) with ([raw c_nl] ++ uimages (map ei (j :: l))). apply fine_app. split; [fraws [c_nl]|exact IH].
Qed.
Lemma clean_heads : forall b, clean (uflats (map eh b)).
Proof. unfold uflats. induction b as [|h b IH]; [intros c []|]. cbn [map flat_map]. apply clean_app; [destruct h; [apply clean_eu|apply clean_link]|exact IH]. Qed.
Lemma fine_highlight : forall ot oi ps, fine (e_highlight ot oi ps).
Proof.
  intros ot oi ps. unfold e_highlight, ebody. repeat (apply fine_app; split); try (fraws [c_bang; c_bang]); try (fraws [c_nl]); try apply fine_nil.
  - destruct ot as [t|]; [|apply fine_nil]. cbn [eo option_map utitle uoption]. change (raw c_space :: eu t) with ([raw c_space] ++ eu t). apply fine_app. split; [fraws [c_space]|apply eu_fine].
  - destruct oi as [i|]; [|apply fine_nil]. cbn [eo option_map uicon uoption]. repeat (apply fine_app; split); [fraws [c_bang; c_space]|apply eu_fine|fraws [c_nl]].
  - destruct ps as [|b ps]; [apply fine_nil|]. apply fine_app. split; [|fraws [c_nl]]. apply fine_join, Forall_map, Forall_forall. intros p _. apply clean_fine, e_line_clean.
Qed.
Lemma fine_node : forall n, fine (e_node n).
Proof.
  fix IH 1. intros [b|l b|i|l|lang code|l|ot oi ps| |kind args|title b].
  - apply clean_fine, clean_eps.
  - cbn [e_node]. repeat (apply fine_app; split); [apply fine_repeat; discriminate|fraws [c_space]|apply clean_fine, clean_heads].
  - apply (fine_images [i]).
  - apply fine_images.
  - cbn [e_node]. unfold fence. repeat (apply fine_app; split); try apply eu_fine; try (fraws [c_nl]); fraws [c_backtick; c_backtick; c_backtick].
  - apply fine_list.
  - apply fine_highlight.
  - apply fine_repeat; discriminate.
  - cbn [e_node]. unfold lcurly2, rcurly2. repeat (apply fine_app; split); try apply eu_fine; [fraws [c_lcurly; c_lcurly]|fraws [c_pipe]|fraws [c_rcurly; c_rcurly]].
  - cbn [e_node]. unfold cstart, cend. repeat (apply fine_app; split); try apply eu_fine; try (fraws [c_nl]); [fraws [c_lcurly; c_percent]|fraws [c_space]| |fraws [c_percent; c_rcurly]].
    apply fine_join. clear title. induction b as [|n b IHb]; constructor; [apply IH|exact IHb].
Qed.

(** ** Each block is read *)

(** [n] is read from its text below [d] collapsibles. *)
Definition read_as (d : nat) (n : ynode) : Prop :=
  parses d (e_node n) [n] /\ e_node n <> [] /\ ~ ends c_nl (e_node n) /\ raw_at c_nl (e_node n) = false /\ raw_at c_percent (e_node n) = false
  /\ forall X, X = [] \/ raw_at c_nl X = true -> (lead c_minus (e_node n ++ X) =? 3) = false.

Lemma read_as_block : forall d n, read_as d n -> is_block d (e_node n, [n]).
Proof. intros d n (P & NE & _ & H1 & H2 & _). split; [|exact P]. cbn [fst]. split; [exact NE|]. split; [apply raw2_head; exact H1|]. split; [apply raw2_head; exact H2|]. intros X. congruence. Qed.

Lemma ends_raw : forall c d A B, B <> [] -> ends d (A ++ B) -> (forall r, B <> r ++ [raw d]) -> c = d.
Proof.
  intros c d A B NE (r & E) H. exfalso. destruct B as [|b B _] using rev_ind; [congruence|]. rewrite app_assoc in E. apply app_inj_tail in E. destruct E as [_ ->]. exact (H B eq_refl).
Qed.
Lemma not_ends : forall A u, u <> raw c_nl -> ~ ends c_nl (A ++ [u]).
Proof. intros A u H (r & E). apply app_inj_tail in E. destruct E as [_ E]. contradiction. Qed.
Lemma lead_other : forall c A X, A <> [] -> raw_at c A = false -> lead c (A ++ X) = 0.
Proof. intros c A X NE H. apply lead_0. rewrite raw_at_app by exact NE. exact H. Qed.
Lemma no_minus : forall A X, A <> [] -> raw_at c_minus A = false -> (lead c_minus (A ++ X) =? 3) = false.
Proof. intros A X NE H. rewrite lead_other by assumption. reflexivity. Qed.

Lemma clean_head : forall c us, clean us -> ~ In c delims -> raw_at c us = false.
Proof. intros c us H N. apply absent_raw_at, clean_absent; assumption. Qed.

(** A normal paragraph does not start with three backticks. *)
Lemma eps_backtick : forall b X, normal_text b -> b <> [] -> (lead c_backtick (uflats (eps b) ++ X) =? 3) = false.
Proof.
  intros b X (F & _) NE. destruct b as [|p b]; [congruence|]. inversion F as [|? ? Fp _]; subst. unfold uflats, eps. cbn [map flat_map]. rewrite <- app_assoc.
  destruct p; cbn [ep uflat normal_inline] in *; try reflexivity.
  - destruct s as [|c x]; [destruct (Fp eq_refl)|]. reflexivity.
  - destruct s as [|c x]; [destruct (Fp eq_refl)|]. reflexivity.
Qed.
Lemma par_read : forall d b, b <> [] -> normal_text b -> read_as d (YParagraph b).
Proof.
  intros d b NE N. pose proof (clean_eps b) as C. pose proof (eps_good b N) as G. assert (NU : uflats (eps b) <> []) by (apply ugoods_ne; [exact G|destruct b; [congruence|discriminate]]).
  unfold read_as. cbn [e_node]. split; [|split; [exact NU|]; split; [apply clean_ends; exact C|]; split; [apply clean_head; [exact C|nodelim]|]; split; [apply clean_head; [exact C|nodelim]|]; intros X _; apply no_minus; [exact NU|apply clean_head; [exact C|nodelim]]].
  rewrite <- (eps_erase b) at 2. apply paragraph_parses; [exact G|exact NU|apply clean_tame; exact C| |].
  - intros B _ _. repeat split.
    + apply eps_backtick; assumption.
    + rewrite raw_at_app by exact NU. apply clean_head; [exact C|nodelim].
    + rewrite lead_other; [reflexivity|exact NU|apply clean_head; [exact C|nodelim]].
    + unfold uboundary, umarker. cbn [skipn]. rewrite !lead_other by (first [exact NU|apply clean_head; [exact C|nodelim]]). rewrite andb_false_r. reflexivity.
    + rewrite lead_other; [reflexivity|exact NU|apply clean_head; [exact C|nodelim]].
    + unfold heading_at. rewrite lead_other; [reflexivity|exact NU|apply clean_head; [exact C|nodelim]].
  - intros s t ts B H _ _. apply (fimages_none _ _ _ _ _ _ H). apply raw2_head. rewrite raw_at_app by exact NU. apply clean_head; [exact C|nodelim].
Qed.

Lemma heads_good : forall b, (forall x, In (HText x) b -> filled x) -> no_neighbours (both is_htext) b -> hgoods (map eh b) /\ map herase (map eh b) = b.
Proof.
  intros b F N. split; [split; [|split]|].
  - apply Forall_map, Forall_forall. intros h Hh. destruct h; cbn [eh hgood]; [apply eu_ne, F; exact Hh|]. repeat split; apply eu_absent.
  - apply (chain_map _ _ eh (fun x y => both is_htext x y = false)); [|apply neighbours_chain; exact N]. intros [] [] H X Y; discriminate.
  - clear F N. induction b as [|h b IH]; [exact I|]. cbn [map fols]. split; [|exact IH]. destruct h as [x|t u]; cbn [eh hfol]; [|exact I].
    intros (a & t & u & v & E & L & _). assert (X : In (raw c_lsquare) (eu x)); [|exact (eu_absent _ _ X)].
    apply (f_equal (fun l => nth_error l (List.length a))) in E. rewrite nth_error_app1 in E by exact L. rewrite nth_error_app2 in E by lia. rewrite Nat.sub_diag in E. cbn [nth_error] in E. exact (nth_error_In _ _ E).
  - clear. induction b as [|h b IH]; [reflexivity|]. cbn [map]. rewrite IH. destruct h; cbn [eh herase uflat]; rewrite ?eu_chars; reflexivity.
Qed.
Lemma head_read : forall d l b, 1 <= l <= 6 -> (forall x, In (HText x) b -> filled x) -> no_neighbours (both is_htext) b -> read_as d (YHeading l b).
Proof.
  intros d l b Hl F N. destruct (heads_good b F N) as [G E]. pose proof (clean_heads b) as C. destruct l as [|k]; [lia|]. unfold read_as. cbn [e_node].
  split; [|split; [discriminate|]; split; [|split; [reflexivity|]; split; [reflexivity|]; intros X _; reflexivity]].
  - rewrite <- E at 2. apply heading_parses; [lia|exact G|apply clean_space; exact C|apply clean_tame; exact C].
  - rewrite app_assoc. intros (r & Er). destruct (uflats (map eh b)) as [|u us _] using rev_ind.
    + rewrite app_nil_r in Er. apply app_inj_tail in Er. destruct Er as [_ Er]. discriminate Er.
    + rewrite app_assoc in Er. apply app_inj_tail in Er. destruct Er as [_ ->]. apply (clean_ends _ C). exists us. reflexivity.
Qed.

Lemma images_good : forall d l, Forall (igood d) (map ei l).
Proof.
  intros d l. apply Forall_map, Forall_forall. intros i _. unfold igood, ei. cbn [fst snd]. split; [apply eu_absent|]. split; [apply eu_absent|]. split; [apply eu_absent|].
  intros p Hp. assert (X : In (raw c_nl) p) by (destruct Hp as [->|[_ ->]]; left; reflexivity). split; apply (nosub_absent _ (raw c_nl)); try exact X; apply eu_absent.
Qed.
Lemma eimages : forall l, map eimage (map ei l) = l.
Proof. induction l as [|[a u] l IH]; [reflexivity|]. cbn [map]. rewrite IH. unfold eimage, ei. cbn [fst snd alt src]. rewrite !eu_chars. reflexivity. Qed.
Lemma images_ends : forall l, l <> [] -> ~ ends c_nl (uimages l).
Proof.
  induction l as [|i l IH]; intros NE; [congruence|]. cbn [uimages]. destruct l as [|j l].
  - rewrite app_nil_r. destruct (uimage_ends i) as (r & ->). apply not_ends. discriminate.
  - intros (r & E). apply (IH ltac:(discriminate)). assert (NU : uimages (j :: l) <> []) by (cbn [uimages]; unfold uimage; destruct l; discriminate).
    destruct (exists_last NU) as (us & u & Eu). rewrite Eu in E |- *. change (raw c_nl :: us ++ [u]) with ((raw c_nl :: us) ++ [u]) in E. rewrite app_assoc in E. apply app_inj_tail in E. destruct E as [_ ->]. exists us. reflexivity.
Qed.
Lemma images_head : forall i l c X, c <> c_bang -> raw_at c (uimages (i :: l) ++ X) = false.
Proof. intros i l c X N. cbn [uimages]. unfold uimage. cbn [app raw_at raw fst snd negb andb]. apply N.eqb_neq. intros E. apply N. symmetry. exact E. Qed.
Lemma images_read : forall d n l, l <> [] -> e_node n = uimages (map ei l) -> match l with [i] => [YImage i] | _ => [YImages l] end = [n] -> read_as d n.
Proof.
  intros d n l NE E1 E2. unfold read_as. rewrite E1, <- E2. pose proof (images_parses d (map ei l) ltac:(destruct l; [congruence|discriminate]) (images_good d l)) as P.
  assert (NU : uimages (map ei l) <> []) by (destruct l as [|i l]; [congruence|]; cbn [map uimages]; unfold uimage; discriminate).
  assert (Hd : forall c, c <> c_bang -> raw_at c (uimages (map ei l)) = false) by (intros c Hc; destruct l as [|i l]; [congruence|]; rewrite <- (app_nil_r (uimages _)); apply (images_head (ei i) (map ei l)); exact Hc).
  split; [|split; [exact NU|]; split; [apply images_ends; destruct l; [congruence|discriminate]|]; split; [apply Hd; discriminate|]; split; [apply Hd; discriminate|]; intros X _; apply no_minus; [exact NU|apply Hd; discriminate]].
  pose proof (eimages l) as Q. destruct l as [|i [|j l]]; [congruence| |].
  - cbn [map] in *. injection Q as Q. rewrite Q in P. exact P.
  - cbn [map] in P |- *. cbn [map] in Q. rewrite Q in P. exact P.
Qed.

Lemma trim_one : forall x, ~ ends_with_nl x -> trim_end c_nl (x ++ [c_nl]) = x.
Proof.
  intros x H. unfold trim_end. destruct x as [|c x _] using rev_ind; [reflexivity|]. rewrite !rev_app_distr. cbn [rev app].
  change (trim_start c_nl (c_nl :: c :: rev x)) with (trim_start c_nl (c :: rev x)). cbn [trim_start].
  destruct (char_eqb c_nl c) eqn:E; [|cbn [rev]; rewrite rev_involutive; reflexivity]. exfalso. apply N.eqb_eq in E. subst c. apply H. exists x. reflexivity.
Qed.
Lemma code_read : forall d lang code, ~ ends_with_nl code -> read_as d (YCode lang code).
Proof.
  intros d lang code H. unfold read_as. cbn [e_node]. split.
  - pose proof (code_parses d (eu lang) (eu code) (eu_absent _ _) (eu_absent _ _) (eu_raw_at _ _) (absent_ends _ _ (eu_absent _ _))) as P. rewrite !eu_chars, (trim_one _ H) in P. apply P.
    intros a b E. exfalso. apply (eu_absent c_backtick code). rewrite E. apply in_or_app. right. left. reflexivity.
  - split; [discriminate|]. split; [|split; [reflexivity|]; split; [reflexivity|]; intros X _; reflexivity]. rewrite !app_assoc. unfold fence at 2. change [raw c_backtick; raw c_backtick; raw c_backtick] with ([raw c_backtick; raw c_backtick] ++ [raw c_backtick]). rewrite app_assoc. apply not_ends. discriminate.
Qed.

Lemma ends_join1 : forall l, l <> [] -> Forall (fun a => a <> [] /\ ~ ends c_nl a) l -> ujoin1 l <> [] /\ ~ ends c_nl (ujoin1 l).
Proof.
  induction l as [|a l IH]; intros NE F; [congruence|]. inversion F as [|? ? [Fa Fa'] Fl]; subst. cbn [ujoin1]. destruct l as [|b l]; [rewrite app_nil_r; auto|].
  destruct (IH ltac:(discriminate) Fl) as [I1 I2]. split; [destruct a; [congruence|discriminate]|]. intros (r & E). apply I2. destruct (exists_last I1) as (us & u & Eu). rewrite Eu in E |- *.
  change (raw c_nl :: us ++ [u]) with ((raw c_nl :: us) ++ [u]) in E. rewrite app_assoc in E. apply app_inj_tail in E. destruct E as [_ ->]. exists us. reflexivity.
Qed.
Lemma list_ends : forall l L, levels_ok L l -> e_list l <> [] /\ ~ ends c_nl (e_list l).
Proof.
  fix IH 1. intros [ty L0 items] L H. cbn [levels_ok] in H. destruct H as (_ & NE & H). rewrite e_list_eq. apply ends_join1; [destruct items; [congruence|discriminate]|]. clear NE.
  induction items as [|[t nested] items IHl]; [constructor|]. cbn [map fold_right] in H |- *. destruct H as [H1 H2]. constructor; [|apply IHl; exact H2]. clear IHl H2. cbn [e_item].
  split; [destruct L0; discriminate|]. intros (r & E). pose proof (clean_eps t) as C. destruct nested as [l|].
  - destruct (IH l (S L) H1) as [I1 I2]. destruct (exists_last I1) as (us & u & Eu). rewrite Eu in *. apply I2. exists us.
    replace (indent L0 ++ raw (mchar ty) :: raw c_space :: uflats (eps t) ++ raw c_nl :: us ++ [u]) with ((indent L0 ++ raw (mchar ty) :: raw c_space :: uflats (eps t) ++ raw c_nl :: us) ++ [u]) in E by (rewrite <- !app_assoc; cbn [app]; rewrite <- app_assoc; reflexivity).
    apply app_inj_tail in E. destruct E as [_ ->]. reflexivity.
  - rewrite app_nil_r in E. destruct (uflats (eps t)) as [|u us _] using rev_ind.
    + replace (indent L0 ++ [raw (mchar ty); raw c_space]) with ((indent L0 ++ [raw (mchar ty)]) ++ [raw c_space]) in E by (rewrite <- app_assoc; reflexivity). apply app_inj_tail in E. destruct E as [_ E]. discriminate E.
    + replace (indent L0 ++ raw (mchar ty) :: raw c_space :: us ++ [u]) with ((indent L0 ++ raw (mchar ty) :: raw c_space :: us) ++ [u]) in E by (rewrite <- app_assoc; reflexivity).
      apply app_inj_tail in E. destruct E as [_ ->]. apply (clean_ends _ C). exists us. reflexivity.
Qed.
Lemma list_read : forall d l, levels_ok 0 l -> Forall normal_line (item_bodies l) -> read_as d (YListNode l).
Proof.
  intros d l H F. destruct (list_ends l 0 H) as [NE He]. pose proof (normal_list_ok d l 0 H F) as O. unfold read_as. cbn [e_node]. split; [apply elist_parses; exact O|]. split; [exact NE|]. split; [exact He|].
  destruct l as [ty L items]. destruct H as (-> & NI & _). rewrite e_list_eq in *. destruct items as [|[t nested] items]; [congruence|]. cbn [map ujoin1 e_item indent repeat app].
  split; [destruct ty; reflexivity|]. split; [destruct ty; reflexivity|]. intros X _. destruct ty; reflexivity.
Qed.

Lemma highlight_read : forall d ot oi ps, Forall normal_line ps -> read_as d (YHighlight ot oi ps).
Proof.
  intros d ot oi ps F. unfold read_as. cbn [e_node]. split; [apply e_highlight_parses; exact F|]. split; [discriminate|]. split; [|split; [reflexivity|]; split; [reflexivity|]; intros X _; reflexivity].
  unfold e_highlight, ebody. rewrite app_nil_r, !app_assoc. unfold bang2 at 2. change [raw c_bang; raw c_bang] with ([raw c_bang] ++ [raw c_bang]). rewrite app_assoc. apply not_ends. discriminate.
Qed.
Lemma embed_read : forall d kind args, read_as d (YEmbed kind args).
Proof.
  intros d kind args. unfold read_as. cbn [e_node]. split.
  - pose proof (embed_parses d (eu kind) (eu args) (eu_absent _ _) (eu_absent _ _) (eu_absent _ _) (eu_absent _ _)) as P. rewrite !eu_chars in P. apply P. intros _. apply (nosub_absent _ (raw c_nl)); [left; reflexivity|apply eu_absent].
  - split; [discriminate|]. split; [|split; [reflexivity|]; split; [reflexivity|]; intros X _; reflexivity]. rewrite !app_assoc. unfold rcurly2. change [raw c_rcurly; raw c_rcurly] with ([raw c_rcurly] ++ [raw c_rcurly]). rewrite app_assoc. apply not_ends. discriminate.
Qed.
Lemma break_read : forall d, read_as d YThematicBreak.
Proof.
  intros d. unfold read_as. cbn [e_node]. split; [apply break_parses|]. split; [discriminate|]. split; [|split; [reflexivity|]; split; [reflexivity|]; intros X _; cbn [repeat app lead raw fst snd negb andb]; reflexivity].
  change (repeat (raw c_minus) 5) with (repeat (raw c_minus) 4 ++ [raw c_minus]). apply not_ends. discriminate.
Qed.

Definition paired (b : list ynode) : list (list uchar * list ynode) := map (fun n => (e_node n, [n])) b.
Lemma paired_fst : forall b, map fst (paired b) = map e_node b.
Proof. intros b. unfold paired. rewrite map_map. reflexivity. Qed.
Lemma paired_snd : forall b, flat_map snd (paired b) = b.
Proof. unfold paired. induction b as [|n b IH]; [reflexivity|]. cbn [map flat_map snd app]. rewrite IH. reflexivity. Qed.
Lemma paired_blocks : forall d b, Forall (read_as d) b -> Forall (is_block d) (paired b).
Proof. intros d b F. apply Forall_map. eapply Forall_impl; [|exact F]. intros n. apply read_as_block. Qed.
Lemma join_head : forall d b, Forall (read_as d) b -> raw_at c_nl (ujoin (map e_node b)) = false.
Proof. intros d [|n b] F; [reflexivity|]. inversion F as [|? ? (_ & NE & _ & H & _) _]; subst. cbn [map ujoin]. rewrite raw_at_app by exact NE. exact H. Qed.
Lemma coll_read : forall d title b, Forall (read_as (S d)) b -> read_as d (YCollapsible title b).
Proof.
  intros d title b F. unfold read_as. split.
  - pose proof (collapsible_parses d (eu title) (paired b) (eu_absent _ _) (eu_raw_at _ _) (paired_blocks _ _ F)) as P. rewrite eu_chars, paired_snd, paired_fst in P. apply P.
    + apply Forall_map. eapply Forall_impl; [|exact F]. intros n (_ & _ & H & _). exact H.
    + exact (join_head _ _ F).
  - cbn [e_node]. split; [discriminate|]. split; [|split; [reflexivity|]; split; [reflexivity|]; intros X _; reflexivity]. rewrite !app_assoc. unfold cend. change [raw c_percent; raw c_rcurly] with ([raw c_percent] ++ [raw c_rcurly]). rewrite app_assoc. apply not_ends. discriminate.
Qed.

Lemma node_read : forall n d, (forall m, In m (all_nodes n) -> normal_node m) -> read_as d n.
Proof.
  fix IH 1. intros n d H. pose proof (H n ltac:(destruct n; left; reflexivity)) as Hn. destruct n as [b|l b|i|l|lang code|l|ot oi ps| |kind args|title b]; cbn [normal_node] in Hn.
  - apply par_read; apply Hn.
  - apply head_read; apply Hn.
  - apply (images_read d _ [i]); [discriminate|reflexivity|reflexivity].
  - apply (images_read d _ l); [destruct l; [cbn in Hn; lia|discriminate]|reflexivity|]. destruct l as [|i [|j l]]; cbn in Hn; [lia|lia|reflexivity].
  - apply code_read; exact Hn.
  - apply list_read; apply Hn.
  - apply highlight_read; exact Hn.
  - apply break_read.
  - apply embed_read.
  - apply coll_read. cbn [all_nodes] in H. assert (H' : forall m, In m (flat_map all_nodes b) -> normal_node m) by (intros m Hm; apply H; right; exact Hm). clear H Hn title.
    induction b as [|n b IHb]; constructor; [apply IH; intros m Hm; apply H'; apply in_or_app; left; exact Hm|apply IHb; intros m Hm; apply H'; apply in_or_app; right; exact Hm].
Qed.

(** ** Documents *)

Definition e_doc (y : yamd) : list uchar :=
  match metadata y with Some m => dash3 ++ ([raw c_nl] ++ eu m ++ [raw c_nl]) ++ dash3 ++ raw c_nl :: raw c_nl :: ujoin (map e_node (body y)) | None => ujoin (map e_node (body y)) end.
Lemma map_render : forall b, map render (map e_node b) = map src_node b.
Proof. intros b. rewrite map_map. apply map_ext. exact e_node_render. Qed.
Lemma e_doc_render : forall y, render (e_doc y) = source y.
Proof.
  intros [[m|] b]; unfold e_doc, source; cbn [metadata body src_some].
  - rewrite !render_app, eu_render, !render_nl, join_render, map_render. rewrite <- !app_assoc. reflexivity.
  - rewrite join_render, map_render. reflexivity.
Qed.
Lemma closed_blocks : forall d b, Forall (read_as d) b -> closed (map e_node b).
Proof.
  intros d b F. induction F as [|n b (_ & _ & H & _) F IH]; [exact I|]. cbn [map closed]. destruct b as [|n2 b]; [exact I|]. split; [exact H|exact IH].
Qed.
Lemma trim_meta : forall m, ~ starts_with_nl m -> ~ ends_with_nl m -> trim_both c_nl (c_nl :: m ++ [c_nl]) = m.
Proof.
  intros m H1 H2. unfold trim_both. change (trim_start c_nl (c_nl :: m ++ [c_nl])) with (trim_start c_nl (m ++ [c_nl])).
  destruct m as [|c m]; [reflexivity|]. cbn [app trim_start]. destruct (char_eqb c_nl c) eqn:E; [exfalso; apply N.eqb_eq in E; subst c; apply H1; exists m; reflexivity|].
  exact (trim_one (c :: m) H2).
Qed.

Lemma normal_source : forall y, normal y -> deserialize (source y) = Ok y.
Proof.
  intros y [Hm Hn]. rewrite deserialize_eq, <- e_doc_render. f_equal.
  assert (F : Forall (read_as 0) (body y)).
  { apply Forall_forall. intros n Hi. apply node_read. intros m H. apply Hn. apply in_flat_map. exists n. auto. }
  pose proof (paired_blocks _ _ F) as Fb. pose proof (closed_blocks _ _ F) as Cl. rewrite <- paired_fst in Cl.
  assert (Fj : fine (ujoin (map e_node (body y)))) by (apply fine_join, Forall_map, Forall_forall; intros n _; apply fine_node).
  unfold e_doc. destruct y as [[m|] b]; cbn [metadata body] in *; rewrite <- paired_fst in *.
  - destruct (Hm m eq_refl) as [M1 M2]. rewrite document_meta; auto.
    + rewrite paired_snd, !chars_app, eu_chars. change (chars [raw c_nl] ++ m ++ chars [raw c_nl]) with (c_nl :: m ++ [c_nl]). rewrite trim_meta by assumption. reflexivity.
    + repeat (apply fine_app; split); try apply eu_fine; try (fraws [c_nl]); try (fraws [c_minus; c_minus; c_minus]).
      match goal with |- fine (?a :: ?c :: ?x) => change (a :: c :: x) with ([a; c] ++ x) end. apply fine_app. split; [fraws [c_nl; c_nl]|exact Fj].
    + exists ([raw c_nl] ++ eu m). rewrite <- app_assoc. reflexivity.
    + intros A1 A2 E _ _. assert (X : absent c_minus A2); [|rewrite (proj1 (lead_0 _ _) (absent_raw_at _ _ X)); reflexivity].
      intros X. assert (Y : In (raw c_minus) ([raw c_nl] ++ eu m ++ [raw c_nl])) by (rewrite E; apply in_or_app; right; exact X).
      apply in_app_or in Y. destruct Y as [[Y|[]]|Y]; [discriminate Y|]. apply in_app_or in Y. destruct Y as [Y|[Y|[]]]; [exact (eu_absent _ _ Y)|discriminate Y].
  - rewrite document_plain; auto; [rewrite paired_snd; reflexivity|]. rewrite paired_fst. destruct b as [|n b]; [reflexivity|]. inversion F as [|? ? (_ & _ & _ & _ & _ & H) _]; subst. cbn [map ujoin]. apply H.
    destruct b; [left; reflexivity|right; reflexivity].
Qed.
