(** Byte offsets of the model are offsets in UTF-8 texts. *)
From Coq Require Import ZifyN.
From Verif Require Import Base Lexer LexSpec LexProofs LexFacts TokFacts Utf8Spec.

Lemma bytes_length : forall c, length (bytes_of c) = utf8_len c.
Proof. intros c. unfold bytes_of, utf8_len. destruct (c <? 128)%N, (c <? 2048)%N, (c <? 65536)%N; reflexivity. Qed.
Lemma encode_app : forall a b, encode (a ++ b) = encode a ++ encode b.
Proof. intros. apply flat_map_app. Qed.
Lemma encode_length : forall s, length (encode s) = byte_len s.
Proof. induction s as [|c s IH]; [reflexivity|]. unfold encode in *. cbn [flat_map byte_len]. rewrite app_length, bytes_length, IH. reflexivity. Qed.

Ltac small := match goal with |- context[(?c <? ?k)%N] => destruct (N.ltb_spec c k) end.
Lemma mod64 : forall n, (n mod 64 < 64)%N.
Proof. intros n. apply N.mod_lt. discriminate. Qed.
Lemma bytes_range : forall c, scalar c -> Forall (fun b => (b < 256)%N) (bytes_of c).
Proof.
  intros c S. assert (U : (c < 1114112)%N) by (destruct S as [S|S]; lia). unfold bytes_of, tail.
  pose proof (mod64 c). pose proof (mod64 (c / 64)%N). pose proof (mod64 (c / 64 / 64)%N).
  repeat small; repeat constructor; try lia.
Qed.

(** The first byte is no continuation byte; the others are. *)
Lemma bytes_shape : forall c, exists b r, bytes_of c = b :: r /\ ~ (128 <= b < 192)%N /\ Forall (fun d => (128 <= d < 192)%N) r.
Proof.
  intros c. unfold bytes_of, tail. pose proof (mod64 c). pose proof (mod64 (c / 64)%N). pose proof (mod64 (c / 64 / 64)%N).
  repeat small; eexists _, _; (split; [reflexivity|]); (split; [lia|]); repeat constructor; lia.
Qed.
Lemma cons_eq : forall (a b : N) x y, a :: x = b :: y -> a = b /\ x = y.
Proof. intros a b x y E. injection E as E1 E2. split; assumption. Qed.
Lemma bytes_injective : forall c d, bytes_of c = bytes_of d -> c = d.
Proof.
  intros c d. unfold bytes_of, tail.
  pose proof (N.div_mod' c 64) as C1. pose proof (N.div_mod' (c / 64) 64) as C2. pose proof (N.div_mod' (c / 64 / 64) 64) as C3.
  pose proof (N.div_mod' d 64) as D1. pose proof (N.div_mod' (d / 64) 64) as D2. pose proof (N.div_mod' (d / 64 / 64) 64) as D3.
  repeat small; intros E; try discriminate E; repeat match goal with H : _ :: _ = _ :: _ |- _ => apply cons_eq in H; destruct H end; lia.
Qed.
Lemma tails_stop : forall r r' x y, Forall (fun d => (128 <= d < 192)%N) r -> Forall (fun d => (128 <= d < 192)%N) r' ->
  (forall b z, x = b :: z -> ~ (128 <= b < 192)%N) -> (forall b z, y = b :: z -> ~ (128 <= b < 192)%N) -> r ++ x = r' ++ y -> r = r' /\ x = y.
Proof.
  induction r as [|a r IH]; intros r' x y F G X Y E.
  - destruct r' as [|b r']; [split; [reflexivity|exact E]|]. cbn in E. subst x. inversion G; subst. destruct (X b (r' ++ y) eq_refl). assumption.
  - destruct r' as [|b r'].
    + cbn in E. subst y. inversion F; subst. destruct (Y a (r ++ x) eq_refl). assumption.
    + cbn in E. injection E as -> E. inversion F; inversion G; subst. destruct (IH r' x y) as [-> ->]; try assumption. split; reflexivity.
Qed.
Lemma encode_head : forall s b z, encode s = b :: z -> ~ (128 <= b < 192)%N.
Proof. intros [|c s] b z E; [discriminate|]. destruct (bytes_shape c) as (b' & r & B & N & _). unfold encode in E. cbn [flat_map] in E. rewrite B in E. injection E as <- _. exact N. Qed.
Lemma encode_injective : forall s t, encode s = encode t -> s = t.
Proof.
  induction s as [|c s IH]; intros [|d t] E.
  - reflexivity.
  - destruct (bytes_shape d) as (b & r & B & _). unfold encode in E. cbn [flat_map] in E. rewrite B in E. discriminate.
  - destruct (bytes_shape c) as (b & r & B & _). unfold encode in E. cbn [flat_map] in E. rewrite B in E. discriminate.
  - destruct (bytes_shape c) as (b & r & B & _ & F). destruct (bytes_shape d) as (b' & r' & B' & _ & F').
    unfold encode in E. cbn [flat_map] in E. fold (encode s) (encode t) in E. rewrite B, B' in E. cbn [app] in E. injection E as <- E.
    destruct (tails_stop r r' _ _ F F' (encode_head s) (encode_head t) E) as [<- E']. f_equal; [apply bytes_injective; congruence|apply IH; exact E'].
Qed.

Lemma boundary_bytes : forall s i, char_boundary (encode s) i <-> exists a b, s = a ++ b /\ byte_len a = i.
Proof.
  induction s as [|c s IH]; intros i.
  - split.
    + intros [->|(b & B & _)]; [exists [], []; split; reflexivity|destruct i; discriminate B].
    + intros (a & b & E & <-). symmetry in E. apply app_eq_nil in E. destruct E as [-> ->]. left. reflexivity.
  - destruct (bytes_shape c) as (b0 & r & B & N & F). assert (L : utf8_len c = S (length r)) by (rewrite <- bytes_length, B; reflexivity).
    unfold encode. cbn [flat_map]. fold (encode s). rewrite B. split.
    + intros H. destruct i as [|i]; [exists [], (c :: s); split; reflexivity|].
      assert (H' : (i < length r /\ exists d, nth_error r i = Some d /\ ~ (128 <= d < 192)%N) \/ exists j, i = length r + j /\ char_boundary (encode s) j).
      { destruct (Nat.lt_ge_cases i (length r)) as [Hi|Hi].
        - left. split; [exact Hi|]. destruct H as [H|(d & D & Nd)].
          + cbn in H. rewrite app_length in H. lia.
          + cbn in D. rewrite nth_error_app1 in D by exact Hi. exists d. split; assumption.
        - right. exists (i - length r). split; [lia|]. destruct H as [H|(d & D & Nd)].
          + left. cbn in H. rewrite app_length in H. lia.
          + right. exists d. cbn in D. rewrite nth_error_app2 in D by exact Hi. split; assumption. }
      destruct H' as [(_ & d & D & Nd)|(j & -> & H')].
      * exfalso. apply Nd. apply nth_error_In in D. exact (proj1 (Forall_forall _ _) F d D).
      * apply IH in H'. destruct H' as (a & b & -> & <-). exists (c :: a), b. split; [reflexivity|]. cbn. lia.
    + intros (a & b & E & <-). destruct a as [|c' a]; [right; exists b0; split; [reflexivity|exact N]|]. injection E as <- E.
      assert (H : char_boundary (encode s) (byte_len a)) by (apply IH; exists a, b; split; [exact E|reflexivity]). cbn [byte_len]. rewrite L.
      destruct H as [H|(d & D & Nd)].
      * left. cbn. rewrite app_length. lia.
      * right. exists d. split; [|exact Nd]. cbn. rewrite nth_error_app2 by lia. replace (length r + byte_len a - length r) with (byte_len a) by lia. exact D.
Qed.

Lemma range_app : forall x y z, range (encode (x ++ y ++ z)) (byte_len x) (byte_len x + byte_len y) = encode y.
Proof.
  intros x y z. unfold range. rewrite !encode_app. rewrite <- (encode_length x). rewrite skipn_app, skipn_all, Nat.sub_diag. cbn [app skipn].
  replace (length (encode x) + byte_len y - length (encode x)) with (length (encode y)) by (rewrite encode_length; lia).
  rewrite firstn_app, firstn_all, Nat.sub_diag. cbn [firstn]. apply app_nil_r.
Qed.

Lemma split_cut : forall a b x y, a ++ b = x ++ y -> byte_len a <= byte_len x -> exists m, x = a ++ m /\ b = m ++ y.
Proof.
  induction a as [|c a IH]; intros b x y E L; [exists x; split; [reflexivity|exact E]|]. destruct x as [|d x].
  - cbn in L. assert (1 <= utf8_len c) by (unfold utf8_len; repeat small; lia). lia.
  - injection E as <- E. cbn in L. destruct (IH b x y E) as (m & -> & ->); [lia|]. exists m. split; reflexivity.
Qed.

Lemma slice_bytes : forall s a b x, slice s a b = Ok x <-> sliceable s a b /\ encode x = range (encode s) a b.
Proof.
  intros s a b x. split.
  - intros H. apply slice_inv in H. destruct H as (p & q & -> & <- & Hb). assert (Eb : b = byte_len p + byte_len x) by lia. clear Hb. subst b.
    split; [|symmetry; apply range_app]. split; [lia|]. split; [rewrite encode_length, !byte_len_app; lia|]. split; apply boundary_bytes.
    + exists p, (x ++ q). split; reflexivity.
    + exists (p ++ x), q. split; [rewrite <- app_assoc; reflexivity|apply byte_len_app].
  - intros ((L & _ & A & B) & E). apply boundary_bytes in A. destruct A as (p & q & -> & <-). apply boundary_bytes in B. destruct B as (u & v & Ev & <-).
    destruct (split_cut _ _ _ _ Ev L) as (m & -> & ->). rewrite byte_len_app in *. rewrite range_app in E. apply encode_injective in E. subst x. apply slice_app.
Qed.
Lemma slice_panics : forall s a b, slice s a b = Panic <-> ~ sliceable s a b.
Proof.
  intros s a b. split.
  - intros H S. destruct S as (L & M & A & B). apply boundary_bytes in A. destruct A as (p & q & -> & <-). apply boundary_bytes in B. destruct B as (u & v & Ev & <-).
    destruct (split_cut _ _ _ _ Ev L) as (m & -> & ->). rewrite byte_len_app, slice_app in H. discriminate.
  - intros N. destruct (slice s a b) as [x| |] eqn:E; [|reflexivity|].
    + apply slice_bytes in E. destruct E as [E _]. contradiction.
    + unfold slice in E. destruct (a <=? b); [|discriminate]. destruct (split_bytes s a) as [[? r]|]; [|discriminate]. destruct (split_bytes r (b - a)) as [[? ?]|]; discriminate.
Qed.
