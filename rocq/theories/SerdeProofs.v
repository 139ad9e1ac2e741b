(** Proofs about the serde feature, for C73. *)
From Coq Require Import String Sorting.Permutation.
From Verif Require Import Base Ast AstSpec Serde SerdeSpec.
Open Scope list_scope.

(** ** What is written is read back *)

Lemma tagged_read t c : de_tagged (tagged t c) = ret (t, c).
Proof. reflexivity. Qed.
Lemma struct1 : forall a, struct_of [s_ "body"] (VMap [(s_ "body", a)]) = ret [Some a].
Proof. reflexivity. Qed.
Lemma struct_anchor : forall a b, struct_of [s_ "text"; s_ "url"] (VMap [(s_ "text", a); (s_ "url", b)]) = ret [Some a; Some b].
Proof. reflexivity. Qed.
Lemma struct_image : forall a b, struct_of [s_ "alt"; s_ "src"] (VMap [(s_ "alt", a); (s_ "src", b)]) = ret [Some a; Some b].
Proof. reflexivity. Qed.
Lemma struct_list : forall a b c, struct_of [s_ "list_type"; s_ "level"; s_ "body"] (VMap [(s_ "list_type", a); (s_ "level", b); (s_ "body", c)])
  = ret [Some a; Some b; Some c].
Proof. reflexivity. Qed.
Lemma struct_item : forall a b, struct_of [s_ "text"; s_ "nested_list"] (VMap [(s_ "text", a); (s_ "nested_list", b)]) = ret [Some a; Some b].
Proof. reflexivity. Qed.
Lemma struct_heading : forall a b, struct_of [s_ "level"; s_ "body"] (VMap [(s_ "level", a); (s_ "body", b)]) = ret [Some a; Some b].
Proof. reflexivity. Qed.
Lemma struct_code : forall a b, struct_of [s_ "lang"; s_ "code"] (VMap [(s_ "lang", a); (s_ "code", b)]) = ret [Some a; Some b].
Proof. reflexivity. Qed.
Lemma struct_highlight : forall a b c, struct_of [s_ "title"; s_ "icon"; s_ "body"] (VMap [(s_ "title", a); (s_ "icon", b); (s_ "body", c)])
  = ret [Some a; Some b; Some c].
Proof. reflexivity. Qed.
Lemma struct_embed : forall a b, struct_of [s_ "kind"; s_ "args"] (VMap [(s_ "kind", a); (s_ "args", b)]) = ret [Some a; Some b].
Proof. reflexivity. Qed.
Lemma struct_collapsible : forall a b, struct_of [s_ "title"; s_ "body"] (VMap [(s_ "title", a); (s_ "body", b)]) = ret [Some a; Some b].
Proof. reflexivity. Qed.
Lemma struct_yamd : forall a b, struct_of [s_ "metadata"; s_ "body"] (VMap [(s_ "metadata", a); (s_ "body", b)]) = ret [Some a; Some b].
Proof. reflexivity. Qed.

Lemma all_map {A} (f : value -> res A) (g : A -> value) l : Forall (fun a => f (g a) = ret a) l -> all f (map g l) = ret l.
Proof. induction 1 as [|a l E _ IH]; cbn [all map]; [reflexivity|]. rewrite E, IH. reflexivity. Qed.
Lemma all_map' {A} (f : value -> res A) (g : A -> value) l : (forall a, f (g a) = ret a) -> all f (map g l) = ret l.
Proof. intros H. apply all_map. apply Forall_forall. auto. Qed.

Lemma anchor_read t u : de_anchor (ser_anchor t u) = ret (t, u).
Proof. unfold de_anchor, ser_anchor. rewrite struct_anchor. reflexivity. Qed.
Lemma bold_read b : de_bold (ser_bold b) = ret b.
Proof. destruct b; reflexivity. Qed.
Lemma par_read p : de_par (ser_par p) = ret p.
Proof.
  destruct p as [t u|l|x|x|x|x|x]; try reflexivity.
  unfold de_par, ser_par. rewrite tagged_read. cbn [rbind ret]. change (str_eqb (s_ "Bold") (s_ "Anchor")) with false. cbn [str_eqb].
  change (str_eqb (s_ "Bold") (s_ "Bold")) with true. cbn [rbind]. unfold de_body. rewrite struct1. cbn [rbind ret de_vec].
  rewrite (all_map' _ _ _ bold_read). reflexivity.
Qed.
Lemma head_read h : de_head (ser_head h) = ret h.
Proof. destruct h; reflexivity. Qed.
Lemma image_read i : de_image (ser_image i) = ret i.
Proof. destruct i. reflexivity. Qed.
Lemma opt_read o : de_opt_string (Some (ser_opt o)) = ret o.
Proof. destruct o; reflexivity. Qed.
Lemma paragraph_read l : de_body de_par (ser_paragraph l) = ret l.
Proof. unfold de_body, ser_paragraph. rewrite struct1. cbn [rbind ret de_vec]. apply all_map'. exact par_read. Qed.
Lemma list_type_read ty : de_list_type (Some (ser_list_type ty)) = ret ty.
Proof. destruct ty; reflexivity. Qed.

(** Depth of parts. *)
Lemma depth_in v l : In v l -> depth v < depth (VList l).
Proof.
  intros H. cbn. assert (G : list_max (map depth l) <= list_max (map depth l)) by lia.
  apply list_max_le in G. rewrite Forall_map, Forall_forall in G. specialize (G v H). lia.
Qed.
Lemma depth_entry k v es : In (k, v) es -> depth v < depth (VMap es).
Proof.
  intros H. cbn. apply Nat.lt_succ_r. set (m := map (fun e : str * value => depth (snd e)) es). assert (G : list_max m <= list_max m) by lia.
  apply list_max_le in G. rewrite Forall_forall in G. apply G. exact (in_map (fun e : str * value => depth (snd e)) es (k, v) H).
Qed.

Fixpoint list_read (l : ylist) : forall fuel, depth (ser_list l) < fuel -> de_list fuel (ser_list l) = ret l.
Proof.
  destruct l as [ty level items]. intros fuel H. destruct fuel as [|fuel]; [lia|].
  cbn [ser_list de_list]. rewrite struct_list. cbn [rbind ret]. rewrite list_type_read. cbn [rbind ret de_usize].
  cbn [ser_list] in H.
  assert (D : depth (VList (map ser_item items)) < depth (VMap [(s_ "list_type", ser_list_type ty); (s_ "level", VNum level); (s_ "body", VList (map ser_item items))]))
    by (apply (depth_entry (s_ "body")); right; right; left; reflexivity).
  assert (E : all (de_item fuel) (map ser_item items) = ret items).
  { assert (L : Forall (fun it => depth (ser_item it) < fuel) items).
    { apply Forall_forall. intros it I. pose proof (depth_in (ser_item it) _ (in_map ser_item items it I)). lia. }
    clear H D. induction items as [|it items IH]; [reflexivity|]. inversion L as [|? ? L1 L2]; subst. cbn [map all].
    replace (de_item fuel (ser_item it)) with (ret it); [cbn [rbind ret]; rewrite IH by exact L2; reflexivity|].
    destruct it as [text nested]. destruct fuel as [|fuel]; [lia|]. cbn [ser_item de_item]. rewrite struct_item. cbn [rbind ret de_vec].
    rewrite (all_map' _ _ _ par_read). cbn [rbind ret]. destruct nested as [l|]; [|reflexivity].
    assert (DL : depth (ser_list l) < fuel).
    { cbn [ser_item] in L1. assert (depth (ser_list l) < depth (VMap [(s_ "text", VList (map ser_par text)); (s_ "nested_list", ser_list l)]))
        by (apply (depth_entry (s_ "nested_list")); right; left; reflexivity). lia. }
    destruct (ser_list l) eqn:S; try (rewrite <- S in *; rewrite (list_read l fuel DL); reflexivity).
    destruct l. discriminate. }
  cbn [de_vec]. rewrite E. reflexivity.
Qed.

(** [u8] levels. *)
Fixpoint levels_u8 (y : ynode) : Prop :=
  match y with
  | YHeading level _ => level <= 255
  | YCollapsible _ b => fold_right and True (map levels_u8 b)
  | _ => True
  end.

Lemma tag_depth t c : depth c < depth (tagged t c).
Proof. apply (depth_entry (s_ "value")). right. left. reflexivity. Qed.

Fixpoint node_read (y : ynode) : forall fuel, levels_u8 y -> depth (ser_node y) < fuel -> de_node fuel (ser_node y) = ret y.
Proof.
  intros fuel U H. destruct fuel as [|fuel]; [lia|]. destruct y as [l|level l|i|l|lang code|l|t i b| |k a|t b].
  - cbn [ser_node de_node]. rewrite tagged_read. cbn [rbind ret]. change (str_eqb (s_ "Paragraph") (s_ "Paragraph")) with true. cbn match.
    rewrite paragraph_read. reflexivity.
  - cbn [ser_node de_node]. rewrite tagged_read. cbn [rbind ret]. change (str_eqb (s_ "Heading") (s_ "Paragraph")) with false.
    change (str_eqb (s_ "Heading") (s_ "Heading")) with true. cbn match. rewrite struct_heading. cbn [rbind ret de_u8 de_vec]. cbn [levels_u8] in U.
    rewrite (proj2 (Nat.leb_le level 255) U). cbn [rbind ret]. rewrite (all_map' _ _ _ head_read). reflexivity.
  - cbn [ser_node de_node]. rewrite tagged_read. destruct i. reflexivity.
  - cbn [ser_node de_node]. rewrite tagged_read. cbn [rbind ret]. change (str_eqb (s_ "Images") (s_ "Paragraph")) with false.
    change (str_eqb (s_ "Images") (s_ "Heading")) with false. change (str_eqb (s_ "Images") (s_ "Image")) with false. change (str_eqb (s_ "Images") (s_ "Images")) with true.
    cbn match. unfold de_body. rewrite struct1. cbn [rbind ret de_vec]. rewrite (all_map' _ _ _ image_read). reflexivity.
  - reflexivity.
  - cbn [ser_node de_node]. rewrite tagged_read. cbn [rbind ret]. change (str_eqb (s_ "List") (s_ "Paragraph")) with false.
    change (str_eqb (s_ "List") (s_ "Heading")) with false. change (str_eqb (s_ "List") (s_ "Image")) with false. change (str_eqb (s_ "List") (s_ "Images")) with false.
    change (str_eqb (s_ "List") (s_ "Code")) with false. change (str_eqb (s_ "List") (s_ "List")) with true. cbn match.
    cbn [ser_node] in H. pose proof (tag_depth (s_ "List") (ser_list l)). rewrite list_read by lia. reflexivity.
  - cbn [ser_node de_node]. rewrite tagged_read. cbn [rbind ret].
    repeat (change (str_eqb (s_ "Highlight") (s_ "Paragraph")) with false || change (str_eqb (s_ "Highlight") (s_ "Heading")) with false).
    change (str_eqb (s_ "Highlight") (s_ "Image")) with false. change (str_eqb (s_ "Highlight") (s_ "Images")) with false.
    change (str_eqb (s_ "Highlight") (s_ "Code")) with false. change (str_eqb (s_ "Highlight") (s_ "List")) with false. change (str_eqb (s_ "Highlight") (s_ "Highlight")) with true. cbn match.
    rewrite struct_highlight. cbn [rbind ret]. rewrite opt_read. cbn [rbind ret]. rewrite opt_read. cbn [rbind ret de_vec].
    rewrite (all_map' _ _ _ paragraph_read). reflexivity.
  - reflexivity.
  - reflexivity.
  - cbn [ser_node de_node]. rewrite tagged_read. cbn [rbind ret].
    change (str_eqb (s_ "Collapsible") (s_ "Paragraph")) with false. change (str_eqb (s_ "Collapsible") (s_ "Heading")) with false.
    change (str_eqb (s_ "Collapsible") (s_ "Image")) with false. change (str_eqb (s_ "Collapsible") (s_ "Images")) with false.
    change (str_eqb (s_ "Collapsible") (s_ "Code")) with false. change (str_eqb (s_ "Collapsible") (s_ "List")) with false. change (str_eqb (s_ "Collapsible") (s_ "Highlight")) with false.
    change (str_eqb (s_ "Collapsible") (s_ "ThematicBreak")) with false. change (str_eqb (s_ "Collapsible") (s_ "Embed")) with false. change (str_eqb (s_ "Collapsible") (s_ "Collapsible")) with true. cbn match.
    rewrite struct_collapsible. cbn [rbind ret de_string de_vec].
    assert (E : all (de_node fuel) (map ser_node b) = ret b).
    { cbn [ser_node] in H. pose proof (tag_depth (s_ "Collapsible") (VMap [(s_ "title", VStr t); (s_ "body", VList (map ser_node b))])) as D1.
      assert (D2 : depth (VList (map ser_node b)) < depth (VMap [(s_ "title", VStr t); (s_ "body", VList (map ser_node b))]))
        by (apply (depth_entry (s_ "body")); right; left; reflexivity).
      assert (L : Forall (fun y => depth (ser_node y) < fuel) b).
      { apply Forall_forall. intros y I. pose proof (depth_in (ser_node y) _ (in_map ser_node b y I)). lia. }
      clear H D1 D2. cbn [levels_u8] in U. induction b as [|y b IH]; [reflexivity|]. inversion L as [|? ? L1 L2]; subst. destruct U as [U1 U2].
      cbn [map all]. rewrite (node_read y fuel U1 L1). cbn [rbind ret]. rewrite (IH U2 L2). reflexivity. }
    rewrite E. reflexivity.
Qed.

Lemma yamd_read y : Forall levels_u8 (body y) -> de_yamd (ser_yamd y) = ret y.
Proof.
  intros U. unfold de_yamd, ser_yamd. rewrite struct_yamd. cbn [rbind ret]. rewrite opt_read. cbn [rbind ret de_vec].
  rewrite all_map; [destruct y; reflexivity|]. rewrite Forall_forall in *. intros n I. apply node_read; [auto|].
  pose proof (depth_in (ser_node n) _ (in_map ser_node _ n I)).
  match goal with |- _ < S (depth ?v) => assert (depth (VList (map ser_node (body y))) < depth v) by (apply (depth_entry (s_ "body")); right; left; reflexivity) end. lia.
Qed.

(** ** Reading ends *)

Definition sure {A} (r : res A) : Prop := r <> OutOfFuel /\ r <> Panic.
Lemma sure_ret {A} (a : A) : sure (ret a).
Proof. split; discriminate. Qed.
Lemma sure_fail {A} : sure (@fail A).
Proof. split; discriminate. Qed.
Lemma sure_bind {A B} (m : res A) (f : A -> res B) : sure m -> (forall a, m = ret a -> sure (f a)) -> sure (rbind m f).
Proof. intros [H1 H2] H. destruct m as [[a|]| |]; cbn; [apply H; reflexivity|apply sure_fail|congruence|congruence]. Qed.
Lemma sure_all {A} (f : value -> res A) vs : (forall v, In v vs -> sure (f v)) -> sure (all f vs).
Proof.
  induction vs as [|v vs IH]; intros H; cbn [all]; [apply sure_ret|]. apply sure_bind; [apply H; left; reflexivity|]. intros a _.
  apply sure_bind; [apply IH; intros; apply H; right; assumption|]. intros l _. apply sure_ret.
Qed.
Lemma sure_vec {A} (f : value -> res A) o : (forall vs v, o = Some (VList vs) -> In v vs -> sure (f v)) -> sure (de_vec f o).
Proof. intros H. destruct o as [[]|]; try apply sure_fail. cbn. apply sure_all. intros v I. exact (H _ _ eq_refl I). Qed.

(** The fields of a struct are parts of it. *)
Lemma field_part k es o : field k es = ret o -> forall v, o = Some v -> depth v < depth (VMap es).
Proof.
  unfold field. destruct (filter _ es) as [|[j w] [|? ?]] eqn:F; intros H v ->; try discriminate. injection H as ->.
  apply (depth_entry j). assert (I : In (j, v) (filter (fun e => str_eqb (fst e) k) es)) by (rewrite F; left; reflexivity).
  apply filter_In in I. apply I.
Qed.
Lemma sure_fields names es : sure (fields names es)
  /\ forall l, fields names es = ret l -> length l = length names /\ forall v, In (Some v) l -> depth v < depth (VMap es).
Proof.
  induction names as [|k names [IH1 IH2]]; cbn [fields].
  - split; [apply sure_ret|]. intros l H. injection H as <-. split; [reflexivity|intros v []].
  - assert (F : sure (field k es)) by (unfold field; destruct (filter _ es) as [|[j w] [|? ?]]; try apply sure_ret; apply sure_fail).
    split; [apply sure_bind; [exact F|]; intros o _; apply sure_bind; [exact IH1|]; intros l _; apply sure_ret|].
    intros l H. destruct (field k es) as [[o|]| |] eqn:E; try discriminate. cbn [rbind] in H.
    destruct (fields names es) as [[l'|]| |]; try discriminate. cbn [rbind] in H. injection H as <-. destruct (IH2 l' eq_refl) as [L D].
    split; [cbn; congruence|]. intros v [->|I]; [exact (field_part k es _ E v eq_refl)|auto].
Qed.
Lemma sure_struct names v : sure (struct_of names v)
  /\ forall l, struct_of names v = ret l -> length l = length names /\ forall w, In (Some w) l -> depth w < depth v.
Proof.
  destruct v as [|s|n|vs|es]; cbn [struct_of]; try (split; [apply sure_fail|discriminate]); [|apply sure_fields].
  destruct (length vs =? length names) eqn:E; [|split; [apply sure_fail|discriminate]]. split; [apply sure_ret|].
  intros l H. injection H as <-. apply Nat.eqb_eq in E. split; [rewrite map_length; exact E|].
  intros w I. apply in_map_iff in I as (u & U & I). injection U as ->. apply depth_in. exact I.
Qed.

Ltac sure_struct names v :=
  apply sure_bind; [exact (proj1 (sure_struct names v))|]; intros ? ?.
Lemma sure_string o : sure (de_string o).
Proof. destruct o as [[]|]; try apply sure_fail; apply sure_ret. Qed.
Lemma sure_opt o : sure (de_opt_string o).
Proof. destruct o as [[]|]; try apply sure_fail; apply sure_ret. Qed.
Lemma sure_u8 o : sure (de_u8 o).
Proof. destruct o as [[]|]; try apply sure_fail. cbn [de_u8]. destruct (_ <=? _); [apply sure_ret|apply sure_fail]. Qed.
Lemma sure_usize o : sure (de_usize o).
Proof. destruct o as [[]|]; try apply sure_fail; apply sure_ret. Qed.
Lemma sure_tagged v : sure (de_tagged v) /\ forall t c, de_tagged v = ret (t, c) -> depth c < depth v.
Proof.
  unfold de_tagged. destruct (sure_struct [s_ "type"; s_ "value"] v) as [S D]. split.
  - apply sure_bind; [exact S|]. intros l _. destruct l as [|[[]|] [|[c|] [|? ?]]]; try apply sure_fail; apply sure_ret.
  - intros t c H. destruct (struct_of _ v) as [[l|]| |]; try discriminate. cbn [rbind] in H.
    destruct l as [|[[]|] [|[c'|] [|? ?]]]; try discriminate. injection H as <- <-. apply (D _ eq_refl). right. left. reflexivity.
Qed.
Lemma sure_list_type o : sure (de_list_type o).
Proof.
  assert (G : forall t, sure (if str_eqb t (s_ "Unordered") then ret LUnordered else if str_eqb t (s_ "Ordered") then ret LOrdered else fail)).
  { intros t. destruct (str_eqb t (s_ "Unordered")); [apply sure_ret|]. destruct (str_eqb t (s_ "Ordered")); [apply sure_ret|apply sure_fail]. }
  destruct o as [[| | | |[|[t []] [|? ?]]]|]; try apply sure_fail; apply G.
Qed.
Lemma sure_anchor v : sure (de_anchor v).
Proof.
  unfold de_anchor. sure_struct [s_ "text"; s_ "url"] v. destruct a as [|? [|? [|? ?]]]; try apply sure_fail.
  apply sure_bind; [apply sure_string|]. intros ? ?. apply sure_bind; [apply sure_string|]. intros ? ?. apply sure_ret.
Qed.
Lemma sure_image v : sure (de_image v).
Proof.
  unfold de_image. sure_struct [s_ "alt"; s_ "src"] v. destruct a as [|? [|? [|? ?]]]; try apply sure_fail.
  apply sure_bind; [apply sure_string|]. intros ? ?. apply sure_bind; [apply sure_string|]. intros ? ?. apply sure_ret.
Qed.
Lemma sure_body {A} (f : value -> res A) v : (forall w, sure (f w)) -> sure (de_body f v).
Proof. intros H. unfold de_body. sure_struct [s_ "body"] v. destruct a as [|? [|? ?]]; try apply sure_fail. apply sure_vec. auto. Qed.
Lemma sure_text {A} (g : str -> A) c : sure (let? x := de_string (Some c) in ret (g x)).
Proof. apply sure_bind; [apply sure_string|]. intros ? ?. apply sure_ret. Qed.
Lemma sure_bold v : sure (de_bold v).
Proof.
  unfold de_bold. apply sure_bind; [apply sure_tagged|]. intros [t c] _.
  repeat (destruct (str_eqb t _); [apply sure_text|]). apply sure_fail.
Qed.
Lemma sure_par v : sure (de_par v).
Proof.
  unfold de_par. apply sure_bind; [apply sure_tagged|]. intros [t c] _.
  destruct (str_eqb t _); [apply sure_bind; [apply sure_anchor|]; intros [] _; apply sure_ret|].
  destruct (str_eqb t _); [apply sure_bind; [apply sure_body; exact sure_bold|]; intros ? _; apply sure_ret|].
  repeat (destruct (str_eqb t _); [apply sure_text|]). apply sure_fail.
Qed.
Lemma sure_head v : sure (de_head v).
Proof.
  unfold de_head. apply sure_bind; [apply sure_tagged|]. intros [t c] _.
  destruct (str_eqb t _); [apply sure_text|].
  destruct (str_eqb t _); [apply sure_bind; [apply sure_anchor|]; intros [] _; apply sure_ret|]. apply sure_fail.
Qed.

Lemma sure_lists fuel : (forall v, depth v < fuel -> sure (de_list fuel v)) /\ (forall v, depth v < fuel -> sure (de_item fuel v)).
Proof.
  induction fuel as [|fuel [IHl IHi]]; [split; intros; lia|]. split; intros v D; cbn [de_list de_item].
  - destruct (sure_struct [s_ "list_type"; s_ "level"; s_ "body"] v) as [S P]. apply sure_bind; [exact S|]. intros l E.
    destruct (P l E) as [_ P']. destruct l as [|ty [|lv [|b [|? ?]]]]; try apply sure_fail.
    apply sure_bind; [apply sure_list_type|]. intros ? _. apply sure_bind; [apply sure_usize|]. intros ? _.
    apply sure_bind; [|intros ? _; apply sure_ret]. apply sure_vec. intros vs w -> I. apply IHi.
    pose proof (depth_in w vs I). pose proof (P' _ (or_intror (or_intror (or_introl eq_refl)))). lia.
  - destruct (sure_struct [s_ "text"; s_ "nested_list"] v) as [S P]. apply sure_bind; [exact S|]. intros l E.
    destruct (P l E) as [_ P']. destruct l as [|tx [|n [|? ?]]]; try apply sure_fail.
    apply sure_bind; [apply sure_vec; intros; apply sure_par|]. intros text _.
    destruct n as [n|]; [|apply sure_ret]. assert (L : depth n < fuel) by (pose proof (P' _ (or_intror (or_introl eq_refl))); lia).
    destruct n; try apply sure_ret; (apply sure_bind; [apply IHl; exact L|]; intros ? _; apply sure_ret).
Qed.

Lemma sure_node fuel : forall v, depth v < fuel -> sure (de_node fuel v).
Proof.
  induction fuel as [|fuel IH]; [intros; lia|]. intros v D. cbn [de_node]. destruct (sure_tagged v) as [S P].
  apply sure_bind; [exact S|]. intros [t c] E. specialize (P t c E).
  destruct (str_eqb t _); [apply sure_bind; [apply sure_body; exact sure_par|]; intros ? _; apply sure_ret|].
  destruct (str_eqb t _).
  { sure_struct [s_ "level"; s_ "body"] c. destruct a as [|? [|? [|? ?]]]; try apply sure_fail.
    apply sure_bind; [apply sure_u8|]. intros ? _. apply sure_bind; [apply sure_vec; intros; apply sure_head|]. intros ? _. apply sure_ret. }
  destruct (str_eqb t _); [apply sure_bind; [apply sure_image|]; intros ? _; apply sure_ret|].
  destruct (str_eqb t _); [apply sure_bind; [apply sure_body; exact sure_image|]; intros ? _; apply sure_ret|].
  destruct (str_eqb t _).
  { sure_struct [s_ "lang"; s_ "code"] c. destruct a as [|? [|? [|? ?]]]; try apply sure_fail.
    apply sure_bind; [apply sure_string|]. intros ? _. apply sure_bind; [apply sure_string|]. intros ? _. apply sure_ret. }
  destruct (str_eqb t _); [apply sure_bind; [apply sure_lists; lia|]; intros ? _; apply sure_ret|].
  destruct (str_eqb t _).
  { sure_struct [s_ "title"; s_ "icon"; s_ "body"] c. destruct a as [|? [|? [|? [|? ?]]]]; try apply sure_fail.
    apply sure_bind; [apply sure_opt|]. intros ? _. apply sure_bind; [apply sure_opt|]. intros ? _.
    apply sure_bind; [apply sure_vec; intros; apply sure_body; exact sure_par|]. intros ? _. apply sure_ret. }
  destruct (str_eqb t _); [apply sure_bind; [apply sure_struct|]; intros ? _; apply sure_ret|].
  destruct (str_eqb t _).
  { sure_struct [s_ "kind"; s_ "args"] c. destruct a as [|? [|? [|? ?]]]; try apply sure_fail.
    apply sure_bind; [apply sure_string|]. intros ? _. apply sure_bind; [apply sure_string|]. intros ? _. apply sure_ret. }
  destruct (str_eqb t _); [|apply sure_fail].
  destruct (sure_struct [s_ "title"; s_ "body"] c) as [S' P']. apply sure_bind; [exact S'|]. intros l E'.
  destruct (P' l E') as [_ D']. destruct l as [|? [|? [|? ?]]]; try apply sure_fail.
  apply sure_bind; [apply sure_string|]. intros ? _. apply sure_bind; [|intros ? _; apply sure_ret].
  apply sure_vec. intros vs w -> I. apply IH. pose proof (depth_in w vs I). pose proof (D' _ (or_intror (or_introl eq_refl))). lia.
Qed.

Lemma sure_yamd v : sure (de_yamd v).
Proof.
  unfold de_yamd. destruct (sure_struct [s_ "metadata"; s_ "body"] v) as [S P]. apply sure_bind; [exact S|]. intros l E.
  destruct (P l E) as [_ D]. destruct l as [|? [|? [|? ?]]]; try apply sure_fail.
  apply sure_bind; [apply sure_opt|]. intros ? _. apply sure_bind; [|intros ? _; apply sure_ret].
  apply sure_vec. intros vs w -> I. apply sure_node. pose proof (depth_in w vs I). pose proof (D _ (or_intror (or_introl eq_refl))). lia.
Qed.

(** ** The order of the entries of maps does not matter *)

Definition oalike (o p : option value) : Prop :=
  match o, p with
  | None, None => True
  | Some v, Some w => alike v w
  | _, _ => False
  end.

Lemma alike_depth : forall v w, alike v w -> depth v = depth w.
Proof.
  fix IH 3. intros v w [ |s|n|l l' F|es es1 es' P F]; try reflexivity.
  - cbn. f_equal. f_equal. induction F as [|a b l l' A F E]; [reflexivity|]. cbn. rewrite (IH _ _ A), E. reflexivity.
  - cbn. f_equal. transitivity (list_max (map (fun e : str * value => depth (snd e)) es1)).
    + clear F. unfold list_max. induction P as [|x l l' P E|x y l|l l' l'' P1 E1 P2 E2]; cbn [map fold_right]; lia.
    + clear P. induction F as [|a b l l' [_ A] F E]; [reflexivity|]. cbn. rewrite (IH _ _ A). f_equal. exact E.
Qed.

Definition same_field (x y : res (option value)) : Prop :=
  (x = fail /\ y = fail) \/ exists o p, x = ret o /\ y = ret p /\ oalike o p.
Lemma alike_field k es es1 es' : Permutation es es1
  -> Forall2 (fun e e' => fst e = fst e' /\ alike (snd e) (snd e')) es1 es' -> same_field (field k es) (field k es').
Proof.
  intros P F. unfold field.
  assert (P' : Permutation (filter (fun e : str * value => str_eqb (fst e) k) es) (filter (fun e => str_eqb (fst e) k) es1)).
  { clear F. induction P as [|x l l' P E|x y l|l l' l'' P1 E1 P2 E2]; cbn; [constructor| | |eapply perm_trans; eassumption].
    - destruct (str_eqb (fst x) k); [constructor|]; exact E.
    - destruct (str_eqb (fst x) k), (str_eqb (fst y) k); try apply Permutation_refl. constructor. }
  assert (F' : Forall2 (fun e e' => fst e = fst e' /\ alike (snd e) (snd e')) (filter (fun e : str * value => str_eqb (fst e) k) es1)
                 (filter (fun e => str_eqb (fst e) k) es')).
  { clear P P'. induction F as [|a b l l' [K A] F E]; [constructor|]. cbn [filter]. rewrite K. destruct (str_eqb (fst b) k); [constructor|]; auto. }
  destruct F' as [|[ka a] [kb b] l l' [K A] F'].
  - apply Permutation_sym, Permutation_nil in P'. rewrite P'. right. exists None, None. repeat split.
  - destruct F' as [|[ka' a'] [kb' b'] l l' [K' A'] F'].
    + apply Permutation_sym, Permutation_length_1_inv in P'. rewrite P'. right. exists (Some a), (Some b). repeat split. exact A.
    + left. pose proof (Permutation_length P') as L. destruct (filter _ es) as [|[? ?] [|? ?]]; try discriminate L. split; reflexivity.
Qed.

Lemma alike_struct names v w : alike v w -> (struct_of names v = fail /\ struct_of names w = fail)
  \/ exists l l', struct_of names v = ret l /\ struct_of names w = ret l' /\ Forall2 oalike l l'.
Proof.
  intros [ |s|n|l l' F|es es1 es' P F]; try (left; split; reflexivity).
  - cbn [struct_of]. replace (length l') with (length l) by (clear names; induction F; cbn; congruence). destruct (length l =? length names); [|left; split; reflexivity].
    right. exists (map Some l), (map Some l'). repeat split. clear names. induction F; constructor; assumption.
  - cbn [struct_of]. induction names as [|k names IH]; cbn [fields].
    + right. exists [], []. repeat split. constructor.
    + destruct (alike_field k es es1 es' P F) as [[-> ->]|(o & p & -> & -> & O)]; [left; split; reflexivity|]. cbn [rbind ret].
      destruct IH as [[-> ->]|(l & l' & -> & -> & L)]; [left; split; reflexivity|]. right. exists (o :: l), (p :: l'). repeat split. constructor; assumption.
Qed.

(** Reading the fields of alike structs. *)
Lemma same_struct {A} names (f : list (option value) -> res A) v w : alike v w
  -> (forall l l', Forall2 oalike l l' -> f l = f l') -> rbind (struct_of names v) f = rbind (struct_of names w) f.
Proof. intros H E. destruct (alike_struct names v w H) as [[-> ->]|(l & l' & -> & -> & F)]; [reflexivity|]. cbn. auto. Qed.
Lemma same_string o p : oalike o p -> de_string o = de_string p.
Proof. destruct o, p; intros H; try destruct H; reflexivity. Qed.
Lemma same_opt o p : oalike o p -> de_opt_string o = de_opt_string p.
Proof. destruct o, p; intros H; try destruct H; reflexivity. Qed.
Lemma same_u8 o p : oalike o p -> de_u8 o = de_u8 p.
Proof. destruct o, p; intros H; try destruct H; reflexivity. Qed.
Lemma same_usize o p : oalike o p -> de_usize o = de_usize p.
Proof. destruct o, p; intros H; try destruct H; reflexivity. Qed.
Lemma same_vec {A} (f : value -> res A) o p : (forall v w, alike v w -> f v = f w) -> oalike o p -> de_vec f o = de_vec f p.
Proof.
  intros E. destruct o as [v|], p as [w|]; intros H; [|destruct H|destruct H|reflexivity].
  destruct H as [ | | |l l' F|]; try reflexivity. cbn. induction F as [|a b l l' H F IH]; [reflexivity|].
  cbn. rewrite (E _ _ H), IH. reflexivity.
Qed.
Lemma same_list_type o p : oalike o p -> de_list_type o = de_list_type p.
Proof.
  destruct o as [v|], p as [w|]; intros H; [|destruct H|destruct H|reflexivity].
  destruct H as [ | | | |es es1 es' P F]; try reflexivity. cbn.
  destruct F as [|[k a] [k' a'] l l' [K A] F]; [apply Permutation_sym, Permutation_nil in P; rewrite P; reflexivity|].
  destruct F as [|[k2 a2] [k2' a2'] l l' [K2 A2] F].
  - apply Permutation_sym, Permutation_length_1_inv in P. rewrite P. cbn in K, A. subst. destruct A; reflexivity.
  - pose proof (Permutation_length P) as L. destruct es as [|[? []] [|? ?]]; try discriminate L; destruct a'; reflexivity.
Qed.
Lemma same_tagged v w : alike v w -> (de_tagged v = fail /\ de_tagged w = fail)
  \/ exists t c c', de_tagged v = ret (t, c) /\ de_tagged w = ret (t, c') /\ alike c c'.
Proof.
  intros H. unfold de_tagged. destruct (alike_struct [s_ "type"; s_ "value"] v w H) as [[-> ->]|(l & l' & -> & -> & F)]; [left; split; reflexivity|].
  cbn [rbind ret]. destruct F as [|o p l l' O F]; [left; split; reflexivity|].
  destruct o as [o|], p as [p|]; try destruct O; try (left; split; reflexivity).
  destruct F as [|o p l l' O F]; [left; split; reflexivity|]. destruct o as [o|], p as [p|]; try destruct O; try (left; split; reflexivity).
  all: destruct F; [right; do 3 eexists; split; [reflexivity|split; [reflexivity|]]; econstructor; eassumption|left; split; reflexivity].
Qed.
Lemma same_tags {A} (f : str * value -> res A) v w : alike v w -> (forall t c c', alike c c' -> f (t, c) = f (t, c'))
  -> rbind (de_tagged v) f = rbind (de_tagged w) f.
Proof. intros H E. destruct (same_tagged v w H) as [[-> ->]|(t & c & c' & -> & -> & C)]; [reflexivity|]. cbn. auto. Qed.

Ltac two F := let o := fresh "o" in let p := fresh "p" in let O := fresh "O" in
  destruct F as [|o p ? ? O F]; [reflexivity|].
Lemma same_anchor v w : alike v w -> de_anchor v = de_anchor w.
Proof.
  intros H. apply same_struct; [exact H|]. intros l l' F. two F. two F. destruct F; [|reflexivity].
  rewrite (same_string _ _ O), (same_string _ _ O0). reflexivity.
Qed.
Lemma same_image v w : alike v w -> de_image v = de_image w.
Proof.
  intros H. apply same_struct; [exact H|]. intros l l' F. two F. two F. destruct F; [|reflexivity].
  rewrite (same_string _ _ O), (same_string _ _ O0). reflexivity.
Qed.
Lemma same_body {A} (f : value -> res A) v w : (forall v w, alike v w -> f v = f w) -> alike v w -> de_body f v = de_body f w.
Proof. intros E H. apply same_struct; [exact H|]. intros l l' F. two F. destruct F; [|reflexivity]. apply same_vec; assumption. Qed.
Lemma same_some c c' : alike c c' -> de_string (Some c) = de_string (Some c').
Proof. intros H. apply same_string. exact H. Qed.
Lemma same_bold v w : alike v w -> de_bold v = de_bold w.
Proof. intros H. apply same_tags; [exact H|]. intros t c c' C. rewrite (same_some _ _ C). reflexivity. Qed.
Lemma same_par v w : alike v w -> de_par v = de_par w.
Proof.
  intros H. apply same_tags; [exact H|]. intros t c c' C. rewrite (same_some _ _ C), (same_anchor _ _ C), (same_body _ _ _ same_bold C). reflexivity.
Qed.
Lemma same_head v w : alike v w -> de_head v = de_head w.
Proof. intros H. apply same_tags; [exact H|]. intros t c c' C. rewrite (same_some _ _ C), (same_anchor _ _ C). reflexivity. Qed.
Lemma same_lists fuel : (forall v w, alike v w -> de_list fuel v = de_list fuel w) /\ (forall v w, alike v w -> de_item fuel v = de_item fuel w).
Proof.
  induction fuel as [|fuel [IHl IHi]]; [split; reflexivity|]. split; intros v w H; cbn [de_list de_item].
  - apply same_struct; [exact H|]. intros l l' F. two F. two F. two F. destruct F; [|reflexivity].
    rewrite (same_list_type _ _ O), (same_usize _ _ O0), (same_vec _ _ _ IHi O1). reflexivity.
  - apply same_struct; [exact H|]. intros l l' F. two F. two F. destruct F; [|reflexivity].
    rewrite (same_vec _ _ _ same_par O). destruct (de_vec de_par p) as [[text|]| |]; cbn [rbind]; try reflexivity.
    destruct o0 as [o0|], p0 as [p0|]; try destruct O0; try reflexivity.
    + rewrite (IHl (VList l) (VList l')) by (constructor; assumption). reflexivity.
    + rewrite (IHl (VMap es) (VMap es')) by (econstructor; eassumption). reflexivity.
Qed.
Lemma same_node fuel : forall v w, alike v w -> de_node fuel v = de_node fuel w.
Proof.
  induction fuel as [|fuel IH]; [reflexivity|]. intros v w H. cbn [de_node]. apply same_tags; [exact H|]. intros t c c' C.
  rewrite (same_body _ _ _ same_par C), (same_image _ _ C), (same_body _ _ _ same_image C), (proj1 (same_lists fuel) _ _ C).
  destruct (str_eqb t (s_ "Paragraph")); [reflexivity|].
  destruct (str_eqb t (s_ "Heading")).
  { apply same_struct; [exact C|]. intros l l' F. two F. two F. destruct F; [|reflexivity].
    rewrite (same_u8 _ _ O), (same_vec _ _ _ same_head O0). reflexivity. }
  destruct (str_eqb t (s_ "Image")); [reflexivity|]. destruct (str_eqb t (s_ "Images")); [reflexivity|].
  destruct (str_eqb t (s_ "Code")).
  { apply same_struct; [exact C|]. intros l l' F. two F. two F. destruct F; [|reflexivity].
    rewrite (same_string _ _ O), (same_string _ _ O0). reflexivity. }
  destruct (str_eqb t (s_ "List")); [reflexivity|].
  destruct (str_eqb t (s_ "Highlight")).
  { apply same_struct; [exact C|]. intros l l' F. two F. two F. two F. destruct F; [|reflexivity].
    rewrite (same_opt _ _ O), (same_opt _ _ O0), (same_vec _ _ _ (fun v w => same_body _ v w same_par) O1). reflexivity. }
  destruct (str_eqb t (s_ "ThematicBreak")); [apply same_struct; [exact C|]; reflexivity|].
  destruct (str_eqb t (s_ "Embed")).
  { apply same_struct; [exact C|]. intros l l' F. two F. two F. destruct F; [|reflexivity].
    rewrite (same_string _ _ O), (same_string _ _ O0). reflexivity. }
  destruct (str_eqb t (s_ "Collapsible")); [|reflexivity].
  apply same_struct; [exact C|]. intros l l' F. two F. two F. destruct F; [|reflexivity].
  rewrite (same_string _ _ O), (same_vec _ _ _ IH O0). reflexivity.
Qed.
Lemma same_yamd v w : alike v w -> de_yamd v = de_yamd w.
Proof.
  intros H. unfold de_yamd. rewrite (alike_depth v w H). apply same_struct; [exact H|]. intros l l' F. two F. two F. destruct F; [|reflexivity].
  rewrite (same_opt _ _ O), (same_vec _ _ _ (same_node _) O0). reflexivity.
Qed.

(** ** Levels *)

Lemma levels_nodes y : (forall l b, In (YHeading l b) (all_nodes y) -> l <= 255) -> levels_u8 y.
Proof.
  revert y. fix IH 1. intros y H. destruct y as [ |level l| | | | | | | |t b]; try exact I.
  - apply (H level l). left. reflexivity.
  - cbn [levels_u8]. assert (H' : forall l x, In (YHeading l x) (flat_map all_nodes b) -> l <= 255) by (intros l x Hin; apply (H l x); right; exact Hin).
    clear H. induction b as [|y b IHb]; [exact I|]. cbn [map fold_right]. cbn [flat_map] in H'. split.
    + apply IH. intros l x Hin. apply (H' l x), in_or_app. left. exact Hin.
    + apply IHb. intros l x Hin. apply (H' l x), in_or_app. right. exact Hin.
Qed.

Lemma yamd_read_back y : (forall l b, In (YHeading l b) (doc_nodes y) -> l <= 255) -> de_yamd (ser_yamd y) = Ok (Some y).
Proof.
  intros H. apply yamd_read. apply Forall_forall. intros n I. apply levels_nodes. intros l b J. apply (H l b). apply in_flat_map. exists n. split; assumption.
Qed.

Lemma rbind_ret {A B} (m : res A) (f : A -> res B) b : rbind m f = ret b -> exists a, m = ret a /\ f a = ret b.
Proof. destruct m as [[a|]| |]; try discriminate. intros H. exists a. split; [reflexivity|exact H]. Qed.
Lemma all_ret {A} (f : value -> res A) vs l : all f vs = ret l -> Forall2 (fun v a => f v = ret a) vs l.
Proof.
  revert l. induction vs as [|v vs IH]; intros l H; [injection H as <-; constructor|]. cbn [all] in H.
  apply rbind_ret in H as (a & Ha & H). apply rbind_ret in H as (l' & Hl & H). injection H as <-. constructor; auto.
Qed.
Lemma vec_ret {A} (f : value -> res A) o l : de_vec f o = ret l -> Forall (fun a => exists v, f v = ret a) l.
Proof.
  destruct o as [[ | | |vs| ]|]; try discriminate. intros H. apply all_ret in H. induction H; constructor; eauto.
Qed.
Lemma level_ret o n : de_u8 o = ret n -> n <= 255.
Proof. destruct o as [[ | |m| | ]|]; try discriminate. cbn [de_u8]. destruct (m <=? 255) eqn:E; [|discriminate]. intros H. injection H as <-. apply Nat.leb_le. exact E. Qed.

Ltac inv H := let a := fresh "a" in let E := fresh "E" in apply rbind_ret in H as (a & E & H).
Lemma node_levels fuel : forall v y, de_node fuel v = ret y -> forall l b, In (YHeading l b) (all_nodes y) -> l <= 255.
Proof.
  induction fuel as [|fuel IH]; [discriminate|]. intros v y H l b. cbn [de_node] in H. inv H. destruct a as [t c].
  destruct (str_eqb t _); [inv H; injection H as <-; intros [X|[]]; discriminate X|].
  destruct (str_eqb t _).
  { inv H. destruct a as [|? [|? [|? ?]]]; try discriminate H. inv H. inv H. injection H as <-. intros [X|[]]. injection X as -> ->. exact (level_ret _ _ E1). }
  destruct (str_eqb t _); [inv H; injection H as <-; intros [X|[]]; discriminate X|].
  destruct (str_eqb t _); [inv H; injection H as <-; intros [X|[]]; discriminate X|].
  destruct (str_eqb t _); [inv H; destruct a as [|? [|? [|? ?]]]; try discriminate H; inv H; inv H; injection H as <-; intros [X|[]]; discriminate X|].
  destruct (str_eqb t _); [inv H; injection H as <-; intros [X|[]]; discriminate X|].
  destruct (str_eqb t _); [inv H; destruct a as [|? [|? [|? [|? ?]]]]; try discriminate H; inv H; inv H; inv H; injection H as <-; intros [X|[]]; discriminate X|].
  destruct (str_eqb t _); [inv H; injection H as <-; intros [X|[]]; discriminate X|].
  destruct (str_eqb t _); [inv H; destruct a as [|? [|? [|? ?]]]; try discriminate H; inv H; inv H; injection H as <-; intros [X|[]]; discriminate X|].
  destruct (str_eqb t _); [|discriminate H].
  inv H. destruct a as [|? [|? [|? ?]]]; try discriminate H. inv H. inv H. injection H as <-. intros [X|X]; [discriminate X|].
  apply in_flat_map in X as (n & N & X). apply vec_ret in E2. rewrite Forall_forall in E2. destruct (E2 n N) as (w & W). exact (IH w n W l b X).
Qed.
Lemma yamd_levels v y : de_yamd v = Ok (Some y) -> forall l b, In (YHeading l b) (doc_nodes y) -> l <= 255.
Proof.
  intros H l b X. unfold de_yamd in H. inv H. destruct a as [|? [|? [|? ?]]]; try discriminate H. inv H. inv H. injection H as <-.
  apply in_flat_map in X as (n & N & X). cbn [body] in N. apply vec_ret in E1. rewrite Forall_forall in E1. destruct (E1 n N) as (w & W). exact (node_levels _ w n W l b X).
Qed.

(** ** Errors *)

Lemma str_eqb_eq (x y : str) : str_eqb x y = true -> x = y.
Proof.
  revert y. induction x as [|a x IH]; intros [|b y] H; try discriminate; [reflexivity|]. cbn in H. apply andb_prop in H as [A B].
  apply N.eqb_eq in A. rewrite A, (IH _ B). reflexivity.
Qed.
Lemma str_eqb_neq (x y : str) : x <> y -> str_eqb x y = false.
Proof. intros H. destruct (str_eqb x y) eqn:E; [|reflexivity]. apply str_eqb_eq in E. contradiction. Qed.
Lemma field_missing k es : (forall v, ~ In (k, v) es) -> field k es = ret None.
Proof.
  intros H. unfold field. destruct (filter _ es) as [|[j v] l] eqn:F; [reflexivity|]. exfalso. apply (H v).
  assert (I : In (j, v) (filter (fun e => str_eqb (fst e) k) es)) by (rewrite F; left; reflexivity). apply filter_In in I as [I E].
  apply str_eqb_eq in E. cbn in E. subst. exact I.
Qed.
Lemma field_cases k es : field k es = fail \/ exists o, field k es = ret o.
Proof. unfold field. destruct (filter _ es) as [|[j v] [|? ?]]; [right; eexists; reflexivity|right; eexists; reflexivity|left; reflexivity]. Qed.
Ltac other H := rewrite str_eqb_neq by (intros ->; apply H; cbn; tauto).

Lemma read_errors : forall fuel,
  (forall es, (forall v, ~ In (s_ "body", v) es) -> de_yamd (VMap es) = Ok None)
  /\ (forall n b, 255 < n -> de_node (S fuel) (tagged (s_ "Heading") (VMap [(s_ "level", VNum n); (s_ "body", b)])) = Ok None)
  /\ (forall t c, ~ In t (map s_ ["Paragraph"; "Heading"; "Image"; "Images"; "Code"; "List"; "Highlight"; "ThematicBreak"; "Embed"; "Collapsible"]%string) ->
        de_node (S fuel) (tagged t c) = Ok None)
  /\ (forall t c, ~ In t (map s_ ["Anchor"; "Bold"; "Italic"; "Strikethrough"; "Text"; "CodeSpan"; "Emphasis"]%string) -> de_par (tagged t c) = Ok None)
  /\ (forall t c, ~ In t (map s_ ["Italic"; "Strikethrough"; "Text"]%string) -> de_bold (tagged t c) = Ok None)
  /\ (forall t c, ~ In t (map s_ ["Text"; "Anchor"]%string) -> de_head (tagged t c) = Ok None)
  /\ (forall t, ~ In t (map s_ ["Unordered"; "Ordered"]%string) -> de_list_type (Some (VStr t)) = Ok None)
  /\ (forall es, (forall v, ~ In (s_ "value", v) es) -> de_node (S fuel) (VMap es) = Ok None)
  /\ (forall k v w es, In k [s_ "metadata"; s_ "body"] -> de_yamd (VMap ((k, v) :: (k, w) :: es)) = Ok None).
Proof.
  intros fuel. repeat apply conj.
  - intros es H. unfold de_yamd. cbn [struct_of fields]. rewrite (field_missing _ _ H). cbn [rbind ret].
    destruct (field_cases (s_ "metadata") es) as [->|(o & ->)]; [reflexivity|]. cbn [rbind ret].
    destruct (sure_opt o) as [F P]. destruct (de_opt_string o) as [[m|]| |]; try contradiction; reflexivity.
  - intros n b H. cbn [de_node]. rewrite tagged_read. cbn [rbind ret]. change (str_eqb (s_ "Heading") (s_ "Paragraph")) with false.
    change (str_eqb (s_ "Heading") (s_ "Heading")) with true. cbn match. rewrite struct_heading. cbn [rbind ret de_u8].
    rewrite (proj2 (Nat.leb_gt n 255) H). reflexivity.
  - intros t c H. cbn [de_node]. rewrite tagged_read. cbn [rbind ret]. do 10 other H. reflexivity.
  - intros t c H. unfold de_par. rewrite tagged_read. cbn [rbind ret]. do 7 other H. reflexivity.
  - intros t c H. unfold de_bold. rewrite tagged_read. cbn [rbind ret]. do 3 other H. reflexivity.
  - intros t c H. unfold de_head. rewrite tagged_read. cbn [rbind ret]. do 2 other H. reflexivity.
  - intros t H. cbn [de_list_type]. do 2 other H. reflexivity.
  - intros es H. cbn [de_node]. unfold de_tagged. cbn [struct_of fields]. rewrite (field_missing _ _ H). cbn [rbind ret].
    destruct (field_cases (s_ "type") es) as [->|([[]|] & ->)]; reflexivity.
  - intros k v w es [<-|[<-|[]]]; unfold de_yamd; cbn [struct_of fields].
    + replace (field (s_ "metadata") _) with (@fail (option value)) by reflexivity. reflexivity.
    + replace (field (s_ "body") _) with (@fail (option value)) by reflexivity. cbn [rbind ret fail].
      destruct (field_cases (s_ "metadata") ((s_ "body", v) :: (s_ "body", w) :: es)) as [->|(o & ->)]; reflexivity.
Qed.
