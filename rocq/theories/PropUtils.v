(** Theorems about the commands of the utils crate (properties C71 and C72).  Specifications: UtilSpec.v. *)
From Coq Require Import String Sorting.Permutation Sorting.Sorted Lia.
From Verif Require Import Base Lexer Utils UtilSpec UtilProofs.
Open Scope list_scope.

(** Whatever the order of the map, [token_stat] prints the number of tokens, and every kind that
    occurs once with its number, larger numbers first, all in column 22. *)
Theorem C71_token_stat : forall hash s p, shuffles hash ->
  exists ts rows head total lines,
    lex s = Ok ts /\ table_of ts rows
    /\ token_stat hash (Some s) (Some p)
       = Ok ([10%N] ++ head ++ [10%N; 10%N] ++ total ++ [10%N; 10%N] ++ concat (map (fun l => l ++ [10%N]) lines))
    /\ laid_out head (s_ "Token statistics for") p
    /\ (exists d, decimal d (List.length ts) /\ laid_out total (s_ "Total token count") d)
    /\ Forall2 (fun l r => exists d, decimal d (snd r) /\ laid_out l (kind_name (fst r)) d) lines rows.
Proof. exact token_stat_output. Qed.
Print Assumptions C71_token_stat.

(** It panics if the file cannot be read or the path is not valid, and on nothing else. *)
Theorem C71_panics : forall hash file path, shuffles hash ->
  token_stat hash file path = Panic <-> file = None \/ path = None.
Proof. exact token_stat_panics. Qed.
Print Assumptions C71_panics.

(** The output is determined if no two kinds occur equally often. *)
Theorem C71_determined : forall h1 h2 s p ts, shuffles h1 -> shuffles h2 -> lex s = Ok ts ->
  (forall j k, In j (map kind ts) -> In k (map kind ts) -> occurrences j ts = occurrences k ts -> j = k) ->
  token_stat h1 (Some s) (Some p) = token_stat h2 (Some s) (Some p).
Proof. exact token_stat_determined. Qed.
Print Assumptions C71_determined.

(** Otherwise the order of the map shows. *)
Theorem C71_order_refuted : exists h1 h2 s p, shuffles h1 /\ shuffles h2 /\
  token_stat h1 (Some s) (Some p) <> token_stat h2 (Some s) (Some p).
Proof.
  exists (fun l => l), (@rev _), (s_ "a*"), (s_ "f"). split; [|split].
  - intros l. reflexivity.
  - intros l. symmetry. apply Permutation_rev.
  - vm_compute. discriminate.
Qed.
Print Assumptions C71_order_refuted.

(** No two kinds have the same name. *)
Theorem C71_names : forall a b, kind_name a = kind_name b -> a = b.
Proof. exact kind_name_inj. Qed.
Print Assumptions C71_names.

(** The line for any name: padded to byte 22, or with one space if it is longer than 21 bytes. *)
Theorem C71_tab : forall left right,
  (byte_len left <= 21 -> exists k, tab left right = left ++ s_ ":" ++ repeat 32%N k ++ right /\ byte_len left + 1 + k = 22)
  /\ (21 < byte_len left -> tab left right = left ++ s_ ": " ++ right).
Proof. exact tab_spec. Qed.
Print Assumptions C71_tab.

Example stat_case : token_stat (@rev _) (Some (s_ "# Hi *b* c")) (Some (s_ "a.yamd")) = Ok (s_ "
Token statistics for: a.yamd

Total token count:    8

Literal:              3
Star:                 2
Space:                2
Hash:                 1
").
Proof. vm_compute. reflexivity. Qed.
(** A name longer than the column is followed by one space, one that just fills it by none. *)
Example long_tab : tab (s_ "0123456789012345678901") (s_ "x") = s_ "0123456789012345678901: x"
  /\ tab (s_ "012345678901234567890") (s_ "x") = s_ "012345678901234567890:x".
Proof. vm_compute. split; reflexivity. Qed.

(** The text of [random] has at least [length] bytes and less than one piece more; it consists of
    valid characters. *)
Theorem C72_length : forall length max ds t, random length max ds = Ok t ->
  length <= byte_len t
  /\ (0 < length -> byte_len t < length + (if max <=? 3 then 2 else 4 * (max - 1)))
  /\ (length = 0 -> t = []) /\ Forall scalar t.
Proof. intros n m ds t E. pose proof (random_spec n m ds) as H. rewrite E in H. exact H. Qed.
Print Assumptions C72_length.

(** It does not panic if literals can have a length. *)
Theorem C72_no_panic : forall length max ds, 4 <= max -> random length max ds <> Panic.
Proof. intros n m ds M E. pose proof (random_spec n m ds) as H. rewrite E in H. lia. Qed.
Print Assumptions C72_no_panic.

(** With smaller maxima a literal is a panic, whatever the length asked for. *)
Theorem C72_small_max_refuted : forall length max, 0 < length -> max <= 3 -> exists ds, random length max ds = Panic.
Proof. intros n m N M. exists [21%N; 0%N]. exact (random_empty_range n m N M). Qed.
Print Assumptions C72_small_max_refuted.

(** It ends as soon as enough of the numbers drawn are characters. *)
Theorem C72_ends : forall length max ds,
  length * (max + 1) < List.length (filter (fun d => let c := (d mod 4294967296)%N in
                                            (c <? 55296) || (57344 <=? c) && (c <? 1114112))%N ds) ->
  random length max ds <> OutOfFuel.
Proof.
  intros n m ds U E. pose proof (random_spec n m ds) as H. rewrite E in H. unfold usables in H.
  apply (Nat.lt_irrefl (n * (m + 1))). eapply Nat.lt_le_trans; [exact U|].
  eapply Nat.le_trans; [|exact H]. apply Nat.eq_le_incl. f_equal. apply filter_ext. intros d.
  unfold usable, from_u32, as_u32. cbn zeta. destruct (_ || _)%bool; reflexivity.
Qed.
Print Assumptions C72_ends.

(** The text need not have the length asked for. *)
Theorem C72_exact_length_refuted : exists length max ds t, random length max ds = Ok t /\ byte_len t <> length.
Proof. exists 1, 10, [0%N], [10%N; 10%N]. split; [reflexivity|]. vm_compute. discriminate. Qed.
Print Assumptions C72_exact_length_refuted.

(** Every fixed piece is by itself one token, of the kind with its number. *)
Theorem C72_pieces : forall i, i < 21 -> exists t k, piece_text i = Some t
  /\ lex t = Ok [mk_token k 0 (byte_len t) (mk_pos 0 0 0) false] /\ kind_number k = i.
Proof.
  intros i L. destruct (piece_text i) as [t|] eqn:E.
  - exists t. destruct (piece_lexes i t E) as (k & A & B). exists k. auto.
  - exfalso. do 21 (destruct i as [|i]; [discriminate|]). lia.
Qed.
Print Assumptions C72_pieces.

(** A heading sign, a space, a literal of three characters (one draw is a surrogate), a star. *)
Example random_case : random 7 10 [10; 8; 21; 0; 97; 55296; 233; 98; 7; 20; 1]%N = Ok [35; 32; 97; 233; 98; 42]%N
  /\ byte_len [35; 32; 97; 233; 98; 42]%N = 7.
Proof. vm_compute. split; reflexivity. Qed.
(** The bound on the length is met: one byte short, then a literal of nine characters of four bytes. *)
Example random_long : exists t, random 2 10 ([8; 21; 6] ++ repeat 128512 9)%N = Ok t /\ byte_len t = 2 + 4 * 9 - 1.
Proof. eexists. split; [vm_compute; reflexivity|reflexivity]. Qed.
