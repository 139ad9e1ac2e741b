(** Proofs about the utils crate, for C71 and C72. *)
From Coq Require Import String Sorting.Permutation Sorting.Sorted Decimal DecimalNat.
From Verif Require Import Base Lexer LexFacts Utils UtilSpec.
Open Scope list_scope.

(** ** Numbers *)

Lemma digits_value d : forall a,
  fold_left (fun a c => 10 * a + N.to_nat (c - 48)) (digits d) a = Nat.of_uint_acc d a.
Proof.
  induction d; intros a; cbn [digits fold_left Nat.of_uint_acc]; auto; rewrite IHd; f_equal;
    rewrite Nat.tail_mul_spec; match goal with |- _ + ?x = _ => let y := eval vm_compute in x in change x with y end; lia.
Qed.

Lemma digits_digit d : Forall digit (digits d).
Proof. induction d; cbn; constructor; auto; unfold digit; lia. Qed.

Lemma digits_nil d : digits d = [] -> d = Nil.
Proof. destruct d; cbn; congruence. Qed.

Lemma to_string_decimal n : decimal (to_string n) n.
Proof.
  unfold to_string. pose proof (Unsigned.to_of (Nat.to_uint n)) as E. rewrite Unsigned.of_to in E.
  split; [|split; [apply digits_digit|split]].
  - intros H. apply digits_nil in H. rewrite H in E. discriminate.
  - unfold value. rewrite digits_value. apply (Unsigned.of_to n).
  - intros r H. assert (N : unorm (Nat.to_uint n) = Nat.to_uint n) by (symmetry; exact E). clear E.
    destruct (Nat.to_uint n) as [|u|u|u|u|u|u|u|u|u|u]; try discriminate. cbn in H. injection H as <-.
    clear - N. assert (X : forall v, (exists w, unorm v = D0 w) -> unorm v = D0 Nil).
    { induction v; cbn; intros [w W]; try discriminate; auto. unfold unorm in *. cbn in *.
      destruct (nzhead v) eqn:Z; auto; try discriminate. exfalso. rewrite W in Z. clear - Z.
      revert w Z. induction v; cbn; intros w Z; try discriminate; eauto. }
    rewrite X in N by (exists u; exact N). injection N as <-. reflexivity.
Qed.

(** ** The map *)

Lemma kind_eqb_eq a b : kind_eqb a b = true <-> a = b.
Proof. unfold kind_eqb. destruct (kind_eq_dec a b); split; congruence. Qed.

Lemma count_up_keys k m :
  (In k (map fst m) /\ map fst (count_up k m) = map fst m)
  \/ (~ In k (map fst m) /\ map fst (count_up k m) = map fst m ++ [k]).
Proof.
  induction m as [|[j n] m IH]; cbn; [right; tauto|].
  destruct (kind_eqb j k) eqn:E; cbn.
  - apply kind_eqb_eq in E. left. auto.
  - assert (j <> k) by (intros H; apply kind_eqb_eq in H; congruence).
    destruct IH as [[A B]|[A B]]; rewrite B; [left|right]; tauto.
Qed.

Lemma count_up_nodup k m : NoDup (map fst m) -> NoDup (map fst (count_up k m)).
Proof.
  intros H. destruct (count_up_keys k m) as [[_ E]|[N E]]; rewrite E; auto.
  apply (Permutation_NoDup (Permutation_cons_append _ _)). constructor; auto.
Qed.

Lemma count_up_other k j n m : j <> k -> In (j, n) (count_up k m) <-> In (j, n) m.
Proof.
  intros D. induction m as [|[i p] m IH]; cbn; [split; [intros [E|[]]; congruence|tauto]|].
  destruct (kind_eqb i k) eqn:E; cbn; [|tauto]. apply kind_eqb_eq in E.
  split; intros [H|H]; auto; left; congruence.
Qed.

Lemma count_up_same k n m : NoDup (map fst m) ->
  In (k, n) (count_up k m) <-> (exists p, n = p + 1 /\ In (k, p) m) \/ (n = 1 /\ ~ In k (map fst m)).
Proof.
  induction m as [|[i p] m IH]; cbn; intros ND.
  - split; [intros [E|[]]; right; split; congruence|]. intros [[p [_ []]]|[-> _]]; auto.
  - apply NoDup_cons_iff in ND as [NI ND]. specialize (IH ND).
    destruct (kind_eqb i k) eqn:E.
    + apply kind_eqb_eq in E. subst i. split.
      * intros [H|H]; [injection H as <-; left; exists p; auto|].
        contradiction NI. change k with (fst (k, n)). apply in_map. exact H.
      * intros [[q [-> [H|H]]]|[_ H]]; [injection H as <-; left; reflexivity| |tauto].
        contradiction NI. change k with (fst (k, q)). apply in_map. exact H.
    + assert (D : i <> k) by (intros H; apply kind_eqb_eq in H; congruence). cbn. rewrite IH. split.
      * intros [H|[[q [-> H]]|[-> H]]]; [congruence|left; eauto|right; tauto].
      * intros [[q [-> [H|H]]]|[-> H]]; [congruence| |]; right; [left; eauto|tauto].
Qed.

Lemma occurrences_app k a b : occurrences k (a ++ b) = occurrences k a + occurrences k b.
Proof. unfold occurrences. rewrite map_app. apply count_occ_app. Qed.

Lemma stat_spec ts :
  NoDup (map fst (stat_of ts)) /\ (forall k n, In (k, n) (stat_of ts) <-> n = occurrences k ts /\ 0 < n).
Proof.
  unfold stat_of. induction ts as [|t ts IH] using rev_ind; cbn.
  - split; [constructor|]. intros k n. unfold occurrences. cbn. lia.
  - rewrite fold_left_app. cbn. destruct IH as [ND IN].
    set (m := fold_left (fun (acc : stat_map) (t : token) => count_up (kind t) acc) ts []) in *. split; [apply count_up_nodup; exact ND|].
    intros k n. rewrite occurrences_app. replace (occurrences k [t]) with (if kind_eq_dec (kind t) k then 1 else 0)
      by (unfold occurrences; cbn; destruct (kind_eq_dec (kind t) k); reflexivity).
    destruct (kind_eq_dec (kind t) k) as [<-|D].
    + rewrite count_up_same by exact ND. split.
      * intros [[p [-> H]]|[-> H]]; [apply IN in H; lia|].
        destruct (occurrences (kind t) ts) as [|o] eqn:O; [lia|].
        contradiction H. change (kind t) with (fst (kind t, S o)). apply in_map. apply IN. lia.
      * intros [-> _]. destruct (occurrences (kind t) ts) as [|o] eqn:O.
        -- right. split; [lia|]. intros H. apply in_map_iff in H as ([j p] & E & H). cbn in E. subst j.
           apply IN in H. lia.
        -- left. exists (S o). split; [lia|]. apply IN. lia.
    + rewrite count_up_other by congruence. rewrite IN. lia.
Qed.

(** The numbers of all kinds add up to the number of tokens. *)
Lemma sum_values_eq m : sum_values m = list_sum (map snd m).
Proof.
  unfold sum_values. enough (G : forall a, fold_left (fun a e => a + snd e) m a = a + list_sum (map snd m)) by apply G.
  induction m as [|e m IH]; intros a; cbn [fold_left map list_sum fold_right]; [|rewrite IH; unfold list_sum; cbn [fold_right]]; unfold list_sum; cbn [fold_right]; lia.
Qed.

Lemma list_sum_perm a b : Permutation a b -> list_sum a = list_sum b.
Proof. induction 1; unfold list_sum in *; cbn [fold_right]; lia. Qed.

Lemma count_up_sum k m : list_sum (map snd (count_up k m)) = S (list_sum (map snd m)).
Proof.
  induction m as [|[j n] m IH]; cbn; auto. unfold list_sum in *; destruct (kind_eqb j k); cbn [map snd fold_right] in *; lia.
Qed.

Lemma stat_sum ts : list_sum (map snd (stat_of ts)) = List.length ts.
Proof.
  unfold stat_of. induction ts as [|t ts IH] using rev_ind; auto.
  rewrite fold_left_app, app_length. cbn. rewrite count_up_sum, IH. lia.
Qed.

(** ** The table *)

Definition down (a b : str * nat) : Prop := snd b <= snd a.

Lemma insert_row_perm x l : Permutation (insert_row x l) (x :: l).
Proof.
  induction l as [|y l IH]; cbn [insert_row]; auto. destruct (snd x <? snd y); auto.
  eapply perm_trans; [apply perm_skip; exact IH|apply perm_swap].
Qed.

Lemma sort_rows_perm l : Permutation (sort_rows l) l.
Proof. induction l as [|x l IH]; cbn; auto. eapply perm_trans; [apply insert_row_perm|apply perm_skip; exact IH]. Qed.

Lemma insert_row_sorted x l : StronglySorted down l -> StronglySorted down (insert_row x l).
Proof.
  induction l as [|y l IH]; cbn [insert_row]; intros S; [repeat constructor|].
  apply StronglySorted_inv in S as [S F]. destruct (snd x <? snd y) eqn:E.
  - constructor; auto. apply Nat.ltb_lt in E. eapply Permutation_Forall; [symmetry; apply insert_row_perm|]. constructor; auto. unfold down. lia.
  - apply Nat.ltb_ge in E. constructor; [constructor; auto|]. constructor; auto.
    eapply Forall_impl; [|exact F]. unfold down. intros. lia.
Qed.

Lemma sort_rows_sorted l : StronglySorted down (sort_rows l).
Proof. induction l; cbn; [constructor|apply insert_row_sorted; auto]. Qed.

Definition named (e : token_kind * nat) : str * nat := (kind_name (fst e), snd e).

Lemma sorted_unmap rows : StronglySorted down (map named rows) -> StronglySorted (fun a b => snd b <= snd a) rows.
Proof.
  induction rows as [|r rows IH]; cbn; intros S; [constructor|]. apply StronglySorted_inv in S as [S F].
  constructor; auto. rewrite Forall_map in F. exact F.
Qed.

Lemma kind_name_ascii k : byte_len (kind_name k) = List.length (kind_name k) /\ List.length (kind_name k) <= 18.
Proof. destruct k; cbn; lia. Qed.

Lemma tab_laid left right : byte_len left = List.length left -> List.length left <= 21 -> laid_out (tab left right) left right.
Proof.
  intros A L. exists (21 - List.length left). unfold tab, spaces, gap. rewrite A.
  rewrite (proj2 (Nat.leb_le _ _) L). split; [reflexivity|lia].
Qed.

Lemma tab_spec left right :
  (byte_len left <= 21 -> exists k, tab left right = left ++ s_ ":" ++ repeat 32%N k ++ right /\ byte_len left + 1 + k = 22)
  /\ (21 < byte_len left -> tab left right = left ++ s_ ": " ++ right).
Proof.
  unfold tab, spaces, gap. split; intros H.
  - exists (21 - byte_len left). rewrite (proj2 (Nat.leb_le _ _) H). split; [reflexivity|lia].
  - rewrite (proj2 (Nat.leb_gt _ _) H). reflexivity.
Qed.

Lemma shuffled_rows hash ts : shuffles hash ->
  exists rows, table_of ts rows /\ Permutation rows (stat_of ts)
    /\ sort_rows (map (fun e => (kind_name (fst e), snd e)) (hash (stat_of ts))) = map named rows.
Proof.
  intros H. change (fun e : token_kind * nat => (kind_name (fst e), snd e)) with named.
  set (l := map named (hash (stat_of ts))). pose proof (sort_rows_perm l) as P.
  destruct (Permutation_map_inv _ _ P) as (rows & E & P').
  exists rows. assert (Q : Permutation rows (stat_of ts)) by (etransitivity; [symmetry; exact P'|apply H]).
  destruct (stat_spec ts) as [ND IN].
  split; [|split; [exact Q|exact E]]. split; [|split].
  - eapply Permutation_NoDup; [|exact ND]. apply Permutation_map. symmetry. exact Q.
  - intros k n. rewrite <- IN. split; apply Permutation_in; [|symmetry]; exact Q.
  - apply sorted_unmap. rewrite <- E. apply sort_rows_sorted.
Qed.

Lemma token_stat_output hash s p : shuffles hash ->
  exists ts rows head total lines,
    lex s = Ok ts /\ table_of ts rows
    /\ token_stat hash (Some s) (Some p)
       = Ok ([c_nl] ++ head ++ [c_nl; c_nl] ++ total ++ [c_nl; c_nl] ++ concat (map (fun l => l ++ [c_nl]) lines))
    /\ laid_out head (s_ "Token statistics for") p
    /\ (exists d, decimal d (List.length ts) /\ laid_out total (s_ "Total token count") d)
    /\ Forall2 (fun l r => exists d, decimal d (snd r) /\ laid_out l (kind_name (fst r)) d) lines rows.
Proof.
  intros H. destruct (iterator_protocol s) as (ts & L & _).
  destruct (shuffled_rows hash ts H) as (rows & T & P & E).
  exists ts, rows, (tab (s_ "Token statistics for") p), (tab (s_ "Total token count") (to_string (List.length ts))),
    (map (fun r => tab (kind_name (fst r)) (to_string (snd r))) rows).
  split; [exact L|]. split; [exact T|]. split; [|split; [|split]].
  - unfold token_stat. rewrite L. cbn [bind]. rewrite E, sum_values_eq.
    rewrite (list_sum_perm _ _ (Permutation_map snd (H (stat_of ts)))), stat_sum.
    rewrite !map_map. reflexivity.
  - apply tab_laid; cbn; lia.
  - eexists. split; [apply to_string_decimal|]. apply tab_laid; cbn; lia.
  - clear. induction rows as [|r rows IH]; cbn; constructor; auto. eexists. split; [apply to_string_decimal|].
    destruct (kind_name_ascii (fst r)). apply tab_laid; auto.
Qed.

Lemma token_stat_panics hash s p : shuffles hash ->
  token_stat hash s p = Panic <-> s = None \/ p = None.
Proof.
  intros H. split; [|intros [->| ->]; [reflexivity|]].
  - destruct s as [s|]; auto. destruct p as [p|]; auto.
    destruct (token_stat_output hash s p H) as (ts & rows & head & total & lines & _ & _ & E & _). rewrite E. discriminate.
  - destruct s as [s|]; [|reflexivity]. destruct (iterator_protocol s) as (ts & L & _). unfold token_stat. rewrite L. reflexivity.
Qed.

(** Two sorted tables with the same rows are equal if no two numbers are. *)
Lemma sorted_unique : forall a b : list (str * nat), Permutation a b -> StronglySorted down a -> StronglySorted down b ->
  NoDup (map snd a) -> a = b.
Proof.
  induction a as [|x a IH]; intros b P SA SB ND.
  - apply Permutation_nil in P. congruence.
  - destruct b as [|y b]; [symmetry in P; apply Permutation_nil in P; congruence|].
    apply StronglySorted_inv in SA as [SA FA]. apply StronglySorted_inv in SB as [SB FB].
    assert (E : x = y).
    { assert (I : In y (x :: a)) by (eapply Permutation_in; [symmetry; exact P|left; reflexivity]).
      assert (J : In x (y :: b)) by (eapply Permutation_in; [exact P|left; reflexivity]).
      destruct I as [I|I]; auto. destruct J as [J|J]; auto.
      rewrite Forall_forall in FA, FB. pose proof (FA _ I) as A. pose proof (FB _ J) as B. unfold down in A, B.
      cbn in ND. apply NoDup_cons_iff in ND as [N _]. contradiction N.
      replace (snd x) with (snd y) by lia. apply in_map. exact I. }
    subst y. f_equal. apply Permutation_cons_inv in P. cbn in ND. apply NoDup_cons_iff in ND as [_ ND]. auto.
Qed.

Lemma occurrences_in k ts : In k (map kind ts) <-> 0 < occurrences k ts.
Proof. unfold occurrences. rewrite (count_occ_In kind_eq_dec). lia. Qed.

Lemma token_stat_determined h1 h2 s p ts : shuffles h1 -> shuffles h2 -> lex s = Ok ts ->
  (forall j k, In j (map kind ts) -> In k (map kind ts) -> occurrences j ts = occurrences k ts -> j = k) ->
  token_stat h1 (Some s) (Some p) = token_stat h2 (Some s) (Some p).
Proof.
  intros H1 H2 L D. unfold token_stat. rewrite L. cbn [bind].
  rewrite !sum_values_eq, (list_sum_perm _ _ (Permutation_map snd (H1 _))), (list_sum_perm _ _ (Permutation_map snd (H2 _))).
  enough (E : sort_rows (map (fun e => (kind_name (fst e), snd e)) (h1 (stat_of ts)))
              = sort_rows (map (fun e => (kind_name (fst e), snd e)) (h2 (stat_of ts)))) by (rewrite E; reflexivity).
  apply sorted_unique.
  - eapply perm_trans; [apply sort_rows_perm|]. eapply perm_trans; [|symmetry; apply sort_rows_perm]. apply Permutation_map.
    eapply perm_trans; [apply H1|symmetry; apply H2].
  - apply sort_rows_sorted.
  - apply sort_rows_sorted.
  - eapply Permutation_NoDup; [apply Permutation_map; symmetry; apply sort_rows_perm|].
    rewrite map_map. cbn. destruct (stat_spec ts) as [ND IN].
    eapply Permutation_NoDup; [apply Permutation_map; symmetry; apply H1|].
    revert IN. assert (G : forall e, In e (stat_of ts) -> In (fst e) (map kind ts) /\ snd e = occurrences (fst e) ts).
    { intros [k n] I. apply stat_spec in I as [-> I]. rewrite occurrences_in. auto. }
    intros _. revert ND G. generalize (stat_of ts). clear - D. intros m. induction m as [|e m IH]; cbn; intros ND G; [constructor|].
    apply NoDup_cons_iff in ND as [N ND]. constructor; auto. intros I. apply in_map_iff in I as (f & E & I).
    destruct (G e (or_introl eq_refl)) as [A A']. destruct (G f (or_intror I)) as [B B'].
    contradiction N. replace (fst e) with (fst f) by (apply D; congruence). apply in_map. exact I.
Qed.

Lemma kind_name_inj a b : kind_name a = kind_name b -> a = b.
Proof. destruct a, b; cbn; intros H; try reflexivity; discriminate. Qed.

(** ** Random text *)

Lemma from_u32_scalar n c : from_u32 n = Some c <-> c = n /\ scalar n.
Proof.
  unfold from_u32, scalar.
  destruct ((n <? 55296) || (57344 <=? n) && (n <? 1114112))%N eqn:E.
  - apply orb_prop in E. rewrite andb_true_iff, !N.ltb_lt, N.leb_le in E. split; [intros H; injection H as <-; auto|intros [-> _]; auto].
  - apply orb_false_iff in E. rewrite andb_false_iff, !N.ltb_ge, N.leb_gt in E. split; [discriminate|lia].
Qed.

(** The draws that give a character. *)
Definition usable (d : N) : bool := match from_u32 (as_u32 d) with Some _ => true | None => false end.
Definition usables (ds : draws) : nat := List.length (filter usable ds).

Lemma usables_step d ds : usables (d :: ds) = match from_u32 (as_u32 d) with Some _ => S (usables ds) | None => usables ds end.
Proof. unfold usables. cbn. unfold usable at 1. destruct (from_u32 (as_u32 d)); reflexivity. Qed.

Lemma random_char_spec ds :
  match random_char ds with
  | Ok (c, r) => scalar c /\ usables ds = S (usables r) /\ List.length r < List.length ds
  | Panic => False
  | OutOfFuel => usables ds = 0
  end.
Proof.
  induction ds as [|d ds IH]; cbn [random_char]; [reflexivity|]. rewrite usables_step.
  destruct (from_u32 (as_u32 d)) as [c|] eqn:E.
  - apply from_u32_scalar in E as [-> E]. cbn. auto.
  - destruct (random_char ds) as [[c r]| |]; auto. destruct IH as (A & B & C). cbn. auto.
Qed.

Lemma random_string_spec n : forall acc ds,
  match random_string n acc ds with
  | Ok (t, r) => exists u, t = acc ++ u /\ List.length u = n /\ Forall scalar u /\ usables ds = n + usables r
                           /\ List.length r <= List.length ds
  | Panic => False
  | OutOfFuel => usables ds < n
  end.
Proof.
  induction n as [|n IH]; intros acc ds; cbn.
  - exists []. rewrite app_nil_r. auto.
  - pose proof (random_char_spec ds) as C. destruct (random_char ds) as [[c r]| |]; cbn; [|exact C|lia].
    destruct C as (S & U & L). specialize (IH (acc ++ [c]) r).
    destruct (random_string n (acc ++ [c]) r) as [[t q]| |]; [|exact IH|lia].
    destruct IH as (u & -> & A & B & D & E). exists (c :: u). rewrite <- app_assoc. cbn. repeat split; auto; lia.
Qed.

Lemma utf8_len_range c : 1 <= utf8_len c <= 4.
Proof. unfold utf8_len. destruct (c <? 128)%N, (c <? 2048)%N, (c <? 65536)%N; lia. Qed.

Lemma byte_len_range s : List.length s <= byte_len s <= 4 * List.length s.
Proof. induction s as [|c s IH]; cbn; [lia|]. pose proof (utf8_len_range c). lia. Qed.

Lemma byte_len_plus a b : byte_len (a ++ b) = byte_len a + byte_len b.
Proof. induction a; cbn; lia. Qed.

(** The longest piece. *)
Definition piece_max (m : nat) : nat := if m <=? 3 then 2 else 4 * (m - 1).

Lemma piece_text_spec i t : piece_text i = Some t -> 1 <= byte_len t <= 2 /\ Forall scalar t.
Proof.
  do 21 (destruct i as [|i]; [intros H; injection H as <-; split; [cbn; lia|repeat constructor]|]).
  discriminate.
Qed.

Lemma usables_cons d ds : usables ds <= usables (d :: ds) <= S (usables ds).
Proof. unfold usables. cbn. destruct (usable d); cbn; lia. Qed.

Lemma random_piece_spec m ds :
  match random_piece m ds with
  | Ok (t, r) => 1 <= byte_len t <= piece_max m /\ Forall scalar t /\ usables ds <= 1 + m + usables r
                 /\ List.length r < List.length ds
  | Panic => m <= 3
  | OutOfFuel => usables ds <= m
  end.
Proof.
  destruct ds as [|d ds]; cbn [random_piece]; [change (usables []) with 0; lia|].
  pose proof (usables_cons d ds) as U.
  destruct (piece_text (in_incl 21 d)) as [t|] eqn:P.
  - apply piece_text_spec in P as [A B]. unfold piece_max. destruct (m <=? 3) eqn:M; [|apply Nat.leb_gt in M]; repeat split; auto; cbn [List.length]; lia.
  - destruct ds as [|e ds].
    + destruct (3 <? m) eqn:M; [apply Nat.ltb_lt in M|apply Nat.ltb_ge in M; lia]. change (usables []) with 0 in U. lia.
    + unfold in_range. destruct (3 <? m) eqn:M; [apply Nat.ltb_lt in M|apply Nat.ltb_ge in M; exact M]. cbn [bind].
      pose proof (usables_cons e ds) as V.
      assert (R : N.to_nat (e mod N.of_nat (m - 3)) < m - 3).
      { pose proof (N.mod_upper_bound e (N.of_nat (m - 3))). lia. }
      revert R. generalize (N.to_nat (e mod N.of_nat (m - 3))). intros n R.
      pose proof (random_string_spec (3 + n) [] ds) as S. destruct (random_string (3 + n) [] ds) as [[t r]| |]; [|contradiction|lia].
      destruct S as (u & -> & A & B & C & D). cbn [app]. pose proof (byte_len_range u).
      unfold piece_max. rewrite (proj2 (Nat.leb_gt m 3) M). repeat split; auto; cbn [List.length]; try lia.
Qed.

(** What the loop adds: pieces, none of them empty. *)
Lemma random_loop_spec n m : forall fuel (out : str) (ds : draws), List.length ds < fuel -> Forall scalar out ->
  match random_loop fuel n m out ds with
  | Ok t => n <= byte_len t /\ (byte_len out < n -> byte_len t < n + piece_max m) /\ Forall scalar t /\ (n <= byte_len out -> t = out)
  | Panic => m <= 3 /\ byte_len out < n
  | OutOfFuel => usables ds <= (n - byte_len out) * (m + 1)
  end.
Proof.
  induction fuel as [|fuel IH]; intros out ds F S; [lia|]. cbn [random_loop].
  destruct (byte_len out <? n) eqn:L; [apply Nat.ltb_lt in L|apply Nat.ltb_ge in L; repeat split; auto; lia].
  pose proof (random_piece_spec m ds) as P. destruct (random_piece m ds) as [[t r]| |]; cbn [bind].
  - destruct P as (A & B & C & D). specialize (IH (out ++ t) r ltac:(lia) ltac:(apply Forall_app; auto)).
    destruct (random_loop fuel n m (out ++ t) r) as [u| |].
    + destruct IH as (X & Y & Z & W). split; [exact X|split; [|split; [exact Z|lia]]]. rewrite byte_len_plus in Y, W.
      intros _. destruct (Nat.lt_ge_cases (byte_len out + byte_len t) n) as [Q|Q]; [auto|].
      rewrite (W Q), byte_len_plus. lia.
    + destruct IH as [X _]. auto.
    + rewrite byte_len_plus in IH. nia.
  - auto.
  - nia.
Qed.

Lemma random_spec n m ds :
  match random n m ds with
  | Ok t => n <= byte_len t /\ (0 < n -> byte_len t < n + piece_max m) /\ (n = 0 -> t = []) /\ Forall scalar t
  | Panic => m <= 3 /\ 0 < n
  | OutOfFuel => usables ds <= n * (m + 1)
  end.
Proof.
  unfold random. pose proof (random_loop_spec n m (S (List.length ds)) [] ds ltac:(lia) (Forall_nil _)) as H.
  destruct (random_loop _ _ _ _ _) as [t| |]; cbn [byte_len] in *.
  - destruct H as (A & B & C & D). repeat split; auto. intros ->. apply D. lia.
  - exact H.
  - rewrite Nat.sub_0_r in H. exact H.
Qed.

(** A literal of an empty range of lengths. *)
Lemma random_empty_range n m : 0 < n -> m <= 3 -> random n m [21%N; 0%N] = Panic.
Proof.
  intros N M. unfold random. cbn [List.length random_loop byte_len].
  rewrite (proj2 (Nat.ltb_lt 0 n) N). cbn [random_piece].
  change (in_incl 21 21) with 21. cbn [piece_text]. unfold in_range.
  rewrite (proj2 (Nat.ltb_ge 3 m) M). reflexivity.
Qed.

Lemma piece_lexes i t : piece_text i = Some t ->
  exists k, lex t = Ok [mk_token k 0 (byte_len t) (mk_pos 0 0 0) false] /\ kind_number k = i.
Proof.
  do 21 (destruct i as [|i]; [intros H; injection H as <-;
    match goal with |- exists k, _ /\ kind_number k = ?n =>
      let f := constr:(nth n [Terminator; Eol; LeftCurlyBrace; RightCurlyBrace; CollapsibleStart; CollapsibleEnd;
        Tilde; Star; Space; Minus; Hash; GreaterThan; Bang; Backtick; Plus; LeftSquareBracket; RightSquareBracket;
        LeftParenthesis; RightParenthesis; Underscore; Pipe] Literal) in exists f end; split; vm_compute; reflexivity|]).
  discriminate.
Qed.
