(** The size of what [Display] writes, from the sizes of the texts of a document. *)
From Coq Require Import String Lia.
From Verif Require Import Base Ast AstSpec EscapeSpec Escapes.
Open Scope list_scope.

Section Size.
  (** The size of a character: one, or its number of bytes. *)
  Variable size : char -> nat.
  Hypothesis size_pos : forall c, 1 <= size c.
  Hypothesis size_ascii : forall c, utf8_len c = 1 -> size c = 1.

  (** The size of a text in which the characters of [R] count one more. *)
  Fixpoint wt (R : char -> bool) (x : str) : nat :=
    match x with [] => 0 | c :: x' => size c + (if R c then 1 else 0) + wt R x' end.
  Definition none : char -> bool := fun _ => false.
  Definition sz (x : str) : nat := wt none x.
  (** The characters that may get a backslash after a paragraph has been written. *)
  Definition late (c : char) : bool := char_eqb c c_minus || char_eqb c c_plus || char_eqb c c_hash || char_eqb c c_bang.

  Lemma wt_app : forall R x y, wt R (x ++ y) = wt R x + wt R y.
  Proof. intros R x y. induction x as [|c x IH]; cbn; [reflexivity|]. rewrite IH. lia. Qed.
  Lemma sz_app : forall x y, sz (x ++ y) = sz x + sz y.
  Proof. apply wt_app. Qed.
  Lemma sz_cons : forall c x, sz (c :: x) = size c + sz x.
  Proof. intros c x. unfold sz. cbn. unfold none. lia. Qed.
  Lemma sz_le : forall R x, sz x <= wt R x.
  Proof. intros R x. induction x as [|c x IH]; [cbn; lia|]. rewrite sz_cons. cbn. lia. Qed.
  Lemma wt_double : forall R x, wt R x <= 2 * sz x.
  Proof. intros R x. induction x as [|c x IH]; [cbn; lia|]. rewrite sz_cons. cbn. pose proof (size_pos c). destruct (R c); lia. Qed.

  Ltac sizes := repeat match goal with |- context [size ?c] => rewrite (size_ascii c) by reflexivity end.
  Ltac small := unfold sz, none; cbn; sizes; cbn; lia.

  (** ** One pass *)

  Lemma written_wt : forall R cs ps x w, R c_bslash = false -> (forall c, In c cs -> R c = false) -> (forall p r, In (p, r) ps -> wt R r <= 2 * sz p) ->
    written cs ps x w -> wt R w <= 2 * sz x.
  Proof.
    intros R cs ps x w B C P W. induction W as [|c x w J W IH|p r x w J W IH|c x w J K W IH].
    - cbn. lia.
    - rewrite sz_cons. cbn [wt]. rewrite (C c J), B. sizes. pose proof (size_pos c). lia.
    - rewrite wt_app, sz_app. pose proof (P p r J). lia.
    - rewrite sz_cons. cbn [wt]. pose proof (size_pos c). destruct (R c); lia.
  Qed.
  Ltac wrote_wt H := let W := fresh "W" in pose proof H as W;
    match type of W with written ?cs ?ps ?x ?w =>
      match goal with |- context [wt ?R w] => assert (wt R w <= 2 * sz x)
      | |- context [sz w] => assert (wt none w <= 2 * sz x) end end;
    [ eapply written_wt; [reflexivity| | |exact W];
      [let H := fresh in intros ? H; vm_compute in H; repeat (destruct H as [<-|H]; [reflexivity|]); contradiction
      |let H := fresh in intros ? ? H; repeat (destruct H as [H|H]; [injection H as <- <-; small|]); contradiction]
    | clear W ].

  (** ** Inline nodes *)

  Definition bcost (b : bold_node) : nat := match b with BText x => 2 * sz x | BItalic x => 2 + 2 * sz x | BStrike x => 4 + 2 * sz x end.
  Definition pcost (p : par_node) : nat :=
    match p with
    | PText x => 2 * sz x
    | PItalic x | PEmphasis x | PCodeSpan x => 2 + 2 * sz x
    | PStrike x => 4 + 2 * sz x
    | PAnchor t u => 4 + 2 * sz t + 2 * sz u
    | PBold l => 4 + list_sum (map bcost l)
    end.
  Definition pscost (l : list par_node) : nat := list_sum (map pcost l).
  Definition hcost (h : head_node) : nat := match h with HText x => 2 * sz x | HAnchor t u => 4 + 2 * sz t + 2 * sz u end.
  Definition icost (i : image_node) : nat := 5 + 2 * sz (alt i) + 2 * sz (src i).

  Lemma forall2_cost : forall {A} (P : A -> str -> Prop) (f : A -> nat) R l ws, (forall x w, P x w -> wt R w <= f x) -> Forall2 P l ws ->
    wt R (concat ws) <= list_sum (map f l).
  Proof. intros A P f R l ws H F. induction F as [|x w l ws X F IH]; [cbn; lia|]. cbn [concat map list_sum fold_right]. rewrite wt_app. apply H in X. unfold list_sum in *. lia. Qed.

  Lemma between_cost : forall R l r cs ps x w n, R c_bslash = false -> (forall c, In c (c_bslash :: cs) -> R c = false) -> (forall p r, In (p, r) ps -> wt R r <= 2 * sz p) ->
    wt R l + wt R r = n -> between l r cs ps x w -> wt R w <= n + 2 * sz x.
  Proof. intros R l r cs ps x w n B C P N (u & U & ->). rewrite !wt_app. pose proof (written_wt R _ _ _ _ B C P U). lia. Qed.
  Ltac bet := match goal with H : between _ _ _ _ _ _ |- _ => eapply between_cost; [reflexivity| | | |exact H];
    [let H := fresh in intros ? H; vm_compute in H; repeat (destruct H as [<-|H]; [reflexivity|]); contradiction
    |let H := fresh in intros ? ? H; repeat (destruct H as [H|H]; [injection H as <- <-; small|]); contradiction
    |cbn; sizes; reflexivity] end.
  Lemma bold_cost : forall b w, bold_text b w -> wt late w <= bcost b.
  Proof. intros [x|x|x] w H; cbn [bold_text bcost] in *; [bet|bet|]. wrote_wt H. assumption. Qed.
  Lemma link_cost : forall R l t u w, (R = none \/ R = late) -> (forall c, In c l -> R c = false) -> link_text l t u w -> wt R w <= 4 + 2 * sz t + 2 * sz u.
  Proof.
    intros R l t u w HR L (a & b & A & B & ->). rewrite !wt_app.
    assert (HA : wt R a <= 2 * sz t).
    { eapply written_wt; [| | |exact A]; [destruct HR as [->| ->]; reflexivity|intros c [<-|I]; [destruct HR as [->| ->]; reflexivity|auto]|].
      intros p r [H|[]]. injection H as <- <-. destruct HR as [->| ->]; small. }
    assert (HB : wt R b <= 2 * sz u).
    { eapply written_wt; [| | |exact B]; [destruct HR as [->| ->]; reflexivity|intros c [<-|[<-|[<-|[]]]]; destruct HR as [->| ->]; reflexivity|].
      intros p r [H|[]]. injection H as <- <-. destruct HR as [->| ->]; small. }
    destruct HR as [->| ->]; cbn [wt s_ list_ascii_of_string map]; cbn; sizes; lia.
  Qed.
  Lemma par_cost : forall p w, par_text p w -> wt late w <= pcost p.
  Proof.
    intros [t u|l|x|x|x|x|x] w H; cbn [par_text pcost] in *; try bet.
    - apply (link_cost late [c_lsquare; c_rsquare]); [auto| |exact H]. intros c [<-|[<-|[]]]; reflexivity.
    - destruct H as [[_ ->]|[_ (ws & F & ->)]]; [cbn; lia|]. rewrite !wt_app. pose proof (forall2_cost _ _ late _ _ bold_cost F). cbn [wt s_ list_ascii_of_string map]; cbn; sizes; lia.
    - wrote_wt H. assumption.
    - destruct x as [|c x]; [subst w; cbn; lia|]. bet.
  Qed.
  Lemma pars_cost : forall l w, pars_text l w -> wt late w <= pscost l.
  Proof. intros l w (ws & F & ->). exact (forall2_cost _ _ late _ _ par_cost F). Qed.
  Lemma head_cost : forall h w, head_text h w -> sz w <= hcost h.
  Proof.
    intros [x|t u] w H; cbn [head_text hcost] in *; [wrote_wt H; assumption|].
    apply (link_cost none [c_lsquare; c_rsquare]); [auto|reflexivity|exact H].
  Qed.
  Lemma image_cost : forall i w, image_text i w -> sz w <= icost i.
  Proof.
    intros i w (v & H & ->). apply (link_cost none) in H; [|auto|reflexivity]. rewrite sz_app. unfold icost, sz in *. cbn [wt s_ list_ascii_of_string map]; cbn; sizes. unfold none in *. lia.
  Qed.

  (** ** Parts *)

  Definition add_sep (n : nat) (l : list nat) : nat := list_sum l + n * pred (List.length l).
  Lemma separated_sz : forall sep ws w, separated sep ws w -> sz w = add_sep (sz sep) (map sz ws).
  Proof.
    intros sep ws w S. unfold add_sep. induction S as [|x|x y l w S IH]; [cbn; lia|cbn; lia|].
    rewrite !sz_app, IH. cbn [map list_sum fold_right length pred]. lia.
  Qed.
  Lemma add_sep_le : forall n a b, Forall2 le a b -> add_sep n a <= add_sep n b.
  Proof.
    intros n a b F. unfold add_sep. assert (L : List.length a = List.length b) by (induction F; cbn; auto). rewrite L. apply Nat.add_le_mono_r.
    clear L. unfold list_sum. induction F; cbn [fold_right]; lia.
  Qed.
  Lemma parts_cost : forall {A} (P : A -> str -> Prop) (f : A -> nat) l ws, (forall x w, In x l -> P x w -> sz w <= f x) -> Forall2 P l ws -> Forall2 le (map sz ws) (map f l).
  Proof. intros A P f l ws H F. induction F as [|x w l ws X F IH]; constructor; [apply H; [left; reflexivity|exact X]|]. apply IH. intros y v I. apply H. right. exact I. Qed.
  Lemma separated_cost : forall {A} (P : A -> str -> Prop) (f : A -> nat) sep l ws w, (forall x w, In x l -> P x w -> sz w <= f x) -> Forall2 P l ws -> separated sep ws w ->
    sz w <= add_sep (sz sep) (map f l).
  Proof. intros A P f sep l ws w H F S. rewrite (separated_sz _ _ _ S). apply add_sep_le. eapply parts_cost; eassumption. Qed.
  Lemma sz_nl : sz nl = 1. Proof. unfold sz, nl. cbn. sizes. reflexivity. Qed.
  Lemma sz_nlnl : sz nlnl = 2. Proof. unfold sz, nlnl. cbn. sizes. reflexivity. Qed.

  (** A paragraph that gets a backslash in front. *)
  Lemma led_cost : forall u w, led u w -> sz w <= wt late u.
  Proof.
    intros u w [[(m & r & I & ->) ->]|[_ ->]]; [|apply sz_le]. rewrite sz_cons, sz_app, wt_app. pose proof (sz_le late r).
    assert (1 + sz m <= wt late m); [|sizes; lia]. repeat (destruct I as [<-|I]; [small|]). contradiction.
  Qed.
  (** ** Paragraphs of a highlight *)

  Definition late2 (c : char) : bool := char_eqb c c_minus || char_eqb c c_plus || char_eqb c c_hash.
  Lemma bangs_wt : forall u v, written [] [mark (s_ "!!")] u v -> wt late2 v <= wt late u.
  Proof.
    intros u v W. induction W as [|c x w J W IH|p r x w J W IH|c x w J K W IH]; [cbn; lia|destruct J| |].
    - destruct J as [J|[]]. assert (wt late2 r <= wt late p) by (injection J as <- <-; small). rewrite !wt_app. lia.
    - cbn [wt]. assert ((if late2 c then 1 else 0) <= (if late c then 1 else 0)); [|lia]. unfold late, late2.
      destruct (char_eqb c c_minus); [cbn; lia|]. destruct (char_eqb c c_plus); [cbn; lia|]. destruct (char_eqb c c_hash); [cbn; lia|]. destruct (char_eqb c c_bang); cbn; lia.
  Qed.
  Lemma bangs_start : forall u v r, written [] [mark (s_ "!!")] u v -> v <> s_ "!!" ++ r.
  Proof.
    intros u v r W. destruct W as [|c x w J W|p q x w J W|c x w J K W]; [discriminate|destruct J| |].
    - destruct J as [J|[]]. injection J as <- <-. discriminate.
    - intros E. cbn in E. injection E as -> ->. inversion W as [|? ? ? J'|p q x' w' J' W' E1 E2|c x' w' J' K' W' E1 E2]; subst.
      + destruct J' as [J'|[]]. injection J' as <- <-. discriminate.
      + apply (K (s_ "!!") (c_bslash :: s_ "!!") x'); [left; reflexivity|reflexivity].
  Qed.
  Lemma hpar_cost : forall p w, hpar_text p w -> sz w <= pscost p.
  Proof.
    intros p w (u & v & P & W & L). apply pars_cost in P. pose proof (bangs_wt _ _ W) as B. pose proof (fun r => bangs_start _ _ r W) as N.
    assert (sz w <= wt late2 v); [|lia]. clear P B W. destruct L as [[(m & r & I & ->) ->]|[_ ->]]; [|apply sz_le].
    rewrite sz_cons, sz_app, wt_app. pose proof (sz_le late2 r). assert (1 + sz m <= wt late2 m); [|sizes; lia].
    repeat (destruct I as [<-|I]; [first [small|exfalso; exact (N r eq_refl)]|]). contradiction.
  Qed.

  (** ** Lists *)

  (** A list marker right after a line feed counts one more. *)
  Definition dash (c : char) : bool := char_eqb c c_minus || char_eqb c c_plus.
  Fixpoint wn (b : bool) (x : str) : nat :=
    match x with [] => 0 | c :: x' => size c + (if b && dash c then 1 else 0) + wn (char_eqb c c_nl) x' end.
  Lemma wn_late : forall x b, wn b x <= wt late x.
  Proof.
    induction x as [|c x IH]; intros b; [cbn; lia|]. cbn [wn wt]. specialize (IH (char_eqb c c_nl)).
    assert ((if b && dash c then 1 else 0) <= (if late c then 1 else 0)); [|lia]. unfold late, dash.
    destruct b; [|cbn; lia]. destruct (char_eqb c c_minus); [cbn; lia|]. destruct (char_eqb c c_plus); cbn; lia.
  Qed.
  Lemma sz_wn : forall x b, sz x <= wn b x.
  Proof. induction x as [|c x IH]; intros b; [cbn; lia|]. rewrite sz_cons. cbn [wn]. specialize (IH (char_eqb c c_nl)). lia. Qed.
  Lemma wn_nl : forall x y b, wn b (x ++ nl ++ y) = wn b x + 1 + wn true y.
  Proof.
    induction x as [|c x IH]; intros y b; cbn [app wn].
    - unfold nl. cbn [app wn]. sizes. replace (dash c_nl) with false by reflexivity. rewrite andb_false_r. reflexivity.
    - rewrite IH. lia.
  Qed.
  Lemma marks_wn : forall ty v w, written [] [(nl ++ list_mark ty ++ s_ " ", nl ++ c_bslash :: list_mark ty ++ s_ " ")] v w -> forall b, wn b w <= wn b v.
  Proof.
    intros ty v w W. induction W as [|c x w J W IH|p r x w J W IH|c x w J K W IH]; intros b; [cbn; lia|destruct J| |].
    - destruct J as [J|[]]. injection J as <- <-. specialize (IH false). destruct ty; unfold nl; cbn [list_mark app wn s_]; cbn; sizes; rewrite andb_false_r; cbn; lia.
    - cbn [wn]. specialize (IH (char_eqb c c_nl)). lia.
  Qed.
  Lemma wn_spaces : forall n b x, 1 <= n -> wn b (repeat_char c_space n ++ x) = n + wn false x.
  Proof.
    intros n b x H. destruct n as [|n]; [lia|]. clear H. revert b. induction n as [|n IH]; intros b; cbn [repeat_char app wn].
    - unfold repeat_char. cbn [repeat app wn]. sizes. rewrite andb_false_r. reflexivity.
    - change (repeat_char c_space (S (S n))) with (c_space :: repeat_char c_space (S n)). cbn [app wn]. rewrite IH. sizes. rewrite andb_false_r. lia.
  Qed.
  Lemma sz_repeat : forall c n, utf8_len c = 1 -> sz (repeat_char c n) = n.
  Proof. intros c n H. unfold repeat_char. induction n as [|n IH]; [reflexivity|]. cbn [repeat]. rewrite sz_cons, IH, (size_ascii c H). reflexivity. Qed.

  Fixpoint lcost (l : ylist) : nat :=
    match l with
    | YList _ lvl items =>
        add_sep 1 (map (fun it => match it with YItem t n => lvl + 2 + pscost t + match n with Some l' => 1 + lcost l' | None => 0 end end) items)
    end.
  Definition line_cost (lvl : nat) (it : yitem) : nat :=
    match it with YItem t n => lvl + 2 + pscost t + match n with Some l' => 1 + lcost l' | None => 0 end end.
  Lemma lcost_eq : forall ty lvl items, lcost (YList ty lvl items) = add_sep 1 (map (line_cost lvl) items).
  Proof. reflexivity. Qed.
  Lemma separated_wn : forall ws w, separated nl ws w -> wn true w = add_sep 1 (map (wn true) ws).
  Proof.
    intros ws w S. unfold add_sep. induction S as [|x|x y l w S IH]; [cbn; lia|cbn; lia|].
    rewrite wn_nl, IH. cbn [map list_sum fold_right length pred]. lia.
  Qed.

  Lemma list_cost : forall l lvl w, levels_ok lvl l -> list_text l w -> sz w <= lcost l /\ (1 <= lvl -> wn true w <= lcost l).
  Proof.
    fix IH 1. intros [ty level items] lvl w G H. inversion H as [? ? ? ws ? F S]; subst. clear H. cbn [levels_ok] in G. destruct G as (-> & _ & G). rewrite lcost_eq.
    rewrite (separated_sz _ _ _ S), sz_nl.
    assert (C : Forall2 le (map sz ws) (map (line_cost lvl) items) /\ (1 <= lvl -> Forall2 le (map (wn true) ws) (map (line_cost lvl) items))).
    { clear S w. revert ws F. induction items as [|it items IHi]; intros ws F; inversion F as [|? v ? ws' X F']; subst; [split; constructor|].
      cbn [map fold_right] in G. destruct G as [G1 G2]. destruct (IHi G2 _ F') as [I1 I2]. clear IHi F F' G2.
      assert (A : sz v <= line_cost lvl it /\ (1 <= lvl -> wn true v <= line_cost lvl it)).
      { assert (Y : forall t n z y, pars_text t z -> (wn false y <= wn false z + match n with Some l' => 1 + lcost l' | None => 0 end) ->
            sz (repeat_char c_space lvl ++ list_mark ty ++ s_ " " ++ y) <= line_cost lvl (YItem t n)
            /\ (1 <= lvl -> wn true (repeat_char c_space lvl ++ list_mark ty ++ s_ " " ++ y) <= line_cost lvl (YItem t n))).
        { intros t n z y P Hb. apply pars_cost in P. pose proof (wn_late z false) as Z. unfold line_cost.
          assert (M : forall b, wn b (list_mark ty ++ s_ " " ++ y) = (if b then 1 else 0) + 2 + wn false y).
          { intros b. destruct ty, b; cbn; sizes; cbn; lia. }
          split.
          - rewrite sz_app, sz_repeat by reflexivity. pose proof (sz_wn (list_mark ty ++ s_ " " ++ y) false) as Q. rewrite M in Q. lia.
          - intros L. rewrite wn_spaces by exact L. rewrite M. lia. }
        destruct it as [t [n|]]; inversion X as [? ? ? z y P W|? ? ? z ? u y P L W]; subst.
        - destruct (IH n (S lvl) u G1 L) as [_ N]. specialize (N ltac:(lia)). apply (Y t (Some n) z y P). pose proof (marks_wn _ _ _ W false) as Q. rewrite wn_nl in Q. lia.
        - apply (Y t None z y P). pose proof (marks_wn _ _ _ W false). lia. }
      destruct A as [A1 A2]. split; [constructor; assumption|]. intros L. constructor; auto. }
    destruct C as [C1 C2]. split; [apply add_sep_le; exact C1|]. intros L. rewrite (separated_wn _ _ S). apply add_sep_le. auto.
  Qed.
  (** ** Blocks and documents *)

  Definition ocost (n : nat) (o : option str) : nat := match o with None => 0 | Some x => n + 2 * sz x end.
  Fixpoint ncost (y : ynode) : nat :=
    match y with
    | YParagraph l => pscost l
    | YHeading level l => level + 1 + list_sum (map hcost l)
    | YImage i => icost i
    | YImages l => add_sep 1 (map icost l)
    | YCode a b => 8 + 2 * sz a + 2 * sz b
    | YListNode l => lcost l
    | YHighlight t i ps => 6 + ocost 1 t + ocost 3 i + add_sep 2 (map pscost ps)
    | YThematicBreak => 5
    | YEmbed k a => 5 + 2 * sz k + 2 * sz a
    | YCollapsible t b => 7 + 2 * sz t + add_sep 2 (map ncost b)
    end.
  Lemma option_cost : forall l r o w n, sz l + sz r = n -> option_text l r o w -> sz w <= ocost n o.
  Proof.
    intros l r [x|] w n N H; cbn [option_text ocost] in *; [|subst w; cbn; lia].
    eapply between_cost; [reflexivity| | |exact N|exact H]; [reflexivity|intros ? ? []].
  Qed.
  Lemma block_cost : forall y w, (forall l, In (YListNode l) (all_nodes y) -> levels_ok 0 l) -> block_text y w -> sz w <= ncost y.
  Proof.
    fix IH 1. intros [l|k l|i|l|lang code|l|t i ps| |k a|t b] w G H; cbn [ncost].
    - inversion H as [? u ? A B| | | | | | | | |]; subst. apply led_cost in B. apply pars_cost in A. lia.
    - inversion H as [|? ? ws A| | | | | | | |]; subst. rewrite !sz_app, sz_repeat by reflexivity.
      pose proof (forall2_cost _ _ none _ _ head_cost A) as B. unfold sz. cbn [wt s_ list_ascii_of_string map]; cbn; sizes. unfold none in *. lia.
    - inversion H; subst. apply image_cost. assumption.
    - inversion H as [| | |? ws ? A S| | | | | |]; subst. rewrite <- sz_nl. eapply separated_cost; [|exact A|exact S]. intros x v _. apply image_cost.
    - inversion H as [| | | |? ? a b A B| | | | |]; subst. rewrite !sz_app, !sz_nl. wrote_wt A. wrote_wt B. unfold sz in *. cbn [wt s_ list_ascii_of_string map]; cbn; sizes. unfold none in *. lia.
    - inversion H as [| | | | |? ? A| | | |]; subst. apply (list_cost l 0); [|exact A]. apply G. left. reflexivity.
    - inversion H as [| | | | | |? ? ? a b ws u A B C S| | |]; subst. apply (option_cost _ _ _ _ 1) in A; [|small]. apply (option_cost _ _ _ _ 3) in B; [|small].
      pose proof (separated_cost hpar_text pscost nlnl ps ws u ltac:(intros x v _; apply hpar_cost) C S) as D. rewrite sz_nlnl in D.
      rewrite !sz_app, !sz_nl. assert (X : sz (s_ "!!") = 2) by (unfold sz; cbn; sizes; reflexivity). rewrite X. lia.
    - inversion H; subst. small.
    - inversion H as [| | | | | | | |? ? a' b A B|]; subst. rewrite !sz_app. wrote_wt A. wrote_wt B. unfold sz in *. cbn [wt s_ list_ascii_of_string map]; cbn; sizes. unfold none in *. lia.
    - inversion H as [| | | | | | | | |? ? a ws u A B S]; subst.
      assert (D : Forall2 le (map sz ws) (map ncost b)).
      { assert (G' : forall x l, In x b -> In (YListNode l) (all_nodes x) -> levels_ok 0 l).
        { intros x l Hx Hl. apply G. cbn [all_nodes]. right. apply in_flat_map. exists x. auto. }
        clear S G A H. revert ws B. induction b as [|y b IHb]; intros ws B; inversion B as [|? v ? ws' B1 B2]; subst; constructor.
        - apply (IH y); [|exact B1]. intros l Hl. apply (G' y); [left; reflexivity|exact Hl].
        - apply IHb; [|exact B2]. intros x l Hx. apply G'. right. exact Hx. }
      apply (add_sep_le 2) in D. rewrite <- sz_nlnl, <- (separated_sz _ _ _ S) in D. rewrite sz_nlnl in D. rewrite !sz_app, !sz_nl. wrote_wt A.
      assert (X : sz (s_ "{% ") = 3) by (unfold sz; cbn; sizes; reflexivity). assert (X' : sz (s_ "%}") = 2) by (unfold sz; cbn; sizes; reflexivity).
      rewrite X, X'. unfold sz in *. lia.
  Qed.
  Definition dcost (y : yamd) : nat := match metadata y with None => 0 | Some m => 10 + sz m end + add_sep 2 (map ncost (body y)).
  Lemma document_cost : forall y w, (forall l, In (YListNode l) (doc_nodes y) -> levels_ok 0 l) -> document_text y w -> sz w <= dcost y.
  Proof.
    intros [m b] w G (a & ws & u & A & B & S & ->). unfold dcost. cbn [metadata body] in *. rewrite sz_app.
    assert (C : sz u <= add_sep 2 (map ncost b)).
    { rewrite <- sz_nlnl. eapply separated_cost; [|exact B|exact S]. intros x v I. apply block_cost. intros l L. apply G. unfold doc_nodes. apply in_flat_map. exists x. auto. }
    destruct m as [m|]; [|subst a; cbn; lia]. destruct A as (v & V & ->).
    assert (sz v <= sz m + 1) by (destruct V as [[_ ->]|[_ ->]]; [lia|rewrite sz_app, sz_nl; lia]).
    rewrite !sz_app, sz_nl, sz_nlnl. assert (X : sz (s_ "---") = 3) by (unfold sz; cbn; sizes; reflexivity). rewrite X. lia.
  Qed.
End Size.
