(** * Proofs about escape-utf-8 *)

From Verif Require Import Base BaseFacts Stdio Table TableSpec TableProofs BuiltinTables CleanString CleanSpec CleanUtf8 Utf8Spec
  CleanStringProofs CleanUtf8Proofs Filter Prog ProgFacts File ParseTableSpec GenBuiltin GenSpec GenProofs Inline InlineSpec
  InlineProofs Escape EscapeSpec.

Local Open Scope nat_scope.

(** ** Numbers *)

Lemma radix_length base : (2 <= base)%N -> forall w fuel n acc, (n < base ^ N.of_nat w)%N -> 0 < w -> fuel <> 0 ->
  length (radix base fuel n acc) <= w + length acc.
Proof.
  intros B. induction w as [|w IH]; intros fuel n acc H W F; [lia|]. destruct fuel as [|fuel]; [easy|]. cbn [radix].
  destruct (N.eqb_spec (n / base) 0) as [Z|Z]; [simpl; lia|].
  assert (Hw : (n / base < base ^ N.of_nat w)%N).
  { apply N.div_lt_upper_bound; [lia|]. rewrite Nat2N.inj_succ, N.pow_succ_r' in H. lia. }
  destruct w as [|w].
  - change (N.of_nat 0) with 0%N in Hw. rewrite N.pow_0_r in Hw. now apply N.lt_1_r in Hw.
  - destruct fuel as [|fuel]; [simpl; lia|].
    eapply Nat.le_trans; [apply (IH (S fuel) _ _ Hw); lia|]. cbn [length]. lia.
Qed.

Lemma number_length base n w : (2 <= base)%N -> (n < base ^ N.of_nat w)%N -> 0 < w -> length (number base n) <= w.
Proof.
  intros B H W. pose proof (radix_length base B w (S (N.to_nat (N.log2 n))) n [] H W ltac:(lia)) as L.
  unfold number. now rewrite Nat.add_0_r in L.
Qed.

Lemma upper_digit_chars c : In c (bs "0123456789abcdef") -> In (upper_digit c) (bs "0123456789ABCDEF").
Proof. intros I. repeat (destruct I as [<-|I]; [vm_compute; tauto|]). destruct I. Qed.

Lemma upper_digit_digit c d : nth_error (bs "0123456789abcdef") (N.to_nat d) = Some c -> digit (upper_digit c) d.
Proof.
  intros E. right. remember (N.to_nat d) as n. clear Heqn d.
  do 16 (destruct n as [|n]; [injection E as <-; reflexivity|]). destruct n; discriminate E.
Qed.

Lemma digit_char_in d : In (digit_char d) (bs "0123456789abcdef").
Proof.
  unfold digit_char. destruct (Nat.lt_ge_cases (N.to_nat d) (length (bs "0123456789abcdef"))) as [L|L].
  - now apply nth_In.
  - rewrite nth_overflow by assumption. now left.
Qed.

Lemma number_radix n : exists ds, number 16 n = map digit_char ds /\ Forall (fun d => d < 16)%N ds /\ positional 16 ds = n.
Proof.
  unfold number. destruct (radix_digits 16 ltac:(lia) (S (N.to_nat (N.log2 n))) n []) as (ds & E & F & P); [|easy|].
  - rewrite Nat2N.inj_succ, N2Nat.id. eapply N.lt_le_trans with (2 ^ N.succ (N.log2 n))%N.
    + destruct n; [reflexivity|]. apply N.log2_spec. reflexivity.
    + apply N.pow_le_mono_l. lia.
  - rewrite app_nil_r in E. eauto.
Qed.

Lemma hex_upper_digits w n : digits 16 (hex_upper w n) n.
Proof.
  destruct (number_radix n) as (ds & E & L & P). unfold hex_upper. rewrite E.
  exists (repeat 0%N (w - length (map upper_digit (map digit_char ds))) ++ ds). split; [|split].
  - apply Forall2_app.
    + induction (w - _); constructor; auto. left. reflexivity.
    + clear -L. induction L; simpl; constructor; auto. apply upper_digit_digit.
      unfold digit_char. apply nth_error_nth'. change (length (bs "0123456789abcdef")) with 16. lia.
  - apply Forall_app. split; [|exact L]. apply Forall_forall. intros x I. apply repeat_spec in I. subst. lia.
  - now rewrite positional_zeros.
Qed.

Lemma hex_upper_case w n : upper_case (hex_upper w n).
Proof.
  destruct (number_radix n) as (ds & E & _). unfold hex_upper, upper_case. rewrite E. apply Forall_app. split.
  - apply Forall_forall. intros x I. apply repeat_spec in I. subst. now left.
  - apply Forall_forall. intros x I. apply in_map_iff in I. destruct I as (c & <- & I).
    apply in_map_iff in I. destruct I as (d & <- & I). apply upper_digit_chars, digit_char_in.
Qed.

Lemma hex_upper_length w n : 0 < w -> (n < 16 ^ N.of_nat w)%N -> length (hex_upper w n) = w.
Proof.
  intros W H. pose proof (number_length 16 n w ltac:(lia) H W) as L.
  unfold hex_upper. cbv zeta. rewrite app_length, repeat_length, map_length. setoid_rewrite map_length. clear H.
  change (@length Byte.byte) with (@length byte). lia.
Qed.

(** ** The table *)

Lemma snprintf_short s : length s <= 15 -> snprintf s = s.
Proof. intros H. unfold snprintf. apply firstn_all2. exact H. Qed.

Lemma snprintf_length s : length (snprintf s) <= length s.
Proof. unfold snprintf. rewrite firstn_length. lia. Qed.

Lemma put_used t k d : wf t -> k <> 0%N -> t_used t < length (t_rows t) -> t_used (fst (table_put t k d)) = S (t_used t).
Proof. intros W K U. destruct (table_put_accept t k d W K U) as (off & -> & _). reflexivity. Qed.

Lemma put_maxdata t k d m : t_maxdata t <= m -> length d <= m -> t_maxdata (fst (table_put t k d)) <= m.
Proof.
  intros T D. unfold table_put. destruct (k =? 0)%N; [exact T|]. destruct (t_length t =? t_used t); [exact T|].
  destruct (put_offset t k); [|exact T]. simpl. destruct (t_maxdata t <? length d); assumption.
Qed.

Lemma store_range_spec text m : forall n i t,
  wf t -> i <> 0%N -> t_used t + n <= length (t_rows t) -> t_maxdata t <= m ->
  (forall k, (i <= k < i + N.of_nat n)%N -> length (text k) <= m) ->
  let t' := store_range n i text t in
  wf t' /\ length (t_rows t') = length (t_rows t) /\ t_used t' = t_used t + n /\ t_maxdata t' <= m /\
  t_default t' = t_default t /\
  forall k, table_get t' k =
    if ((i <=? k) && (k <? i + N.of_nat n))%N then Some (snprintf (text k)) else table_get t k.
Proof.
  induction n as [|n IH]; intros i t W I U M T; cbv zeta; cbn [store_range].
  - splits; auto; try lia. intros k. destruct (N.leb_spec i k); [|reflexivity].
    destruct (N.ltb_spec k (i + N.of_nat 0)); [lia|reflexivity].
  - set (t1 := fst (table_put t i (snprintf (text i)))).
    assert (U1 : t_used t1 = S (t_used t)) by (apply put_used; auto; lia).
    assert (L1 : length (t_rows t1) = length (t_rows t)) by apply table_put_length.
    destruct (IH (i + 1)%N t1) as (W' & L' & U' & M' & D' & G'); auto.
    + now apply wf_put.
    + lia.
    + lia.
    + apply put_maxdata; auto. pose proof (snprintf_length (text i)). specialize (T i). lia.
    + intros k K. apply T. lia.
    + splits; auto; try lia.
      * rewrite D'. apply table_put_default.
      * intros k. rewrite G'. unfold t1. rewrite table_get_put by (auto; lia).
        destruct (N.leb_spec (i + 1) k), (N.ltb_spec k (i + 1 + N.of_nat n)), (N.leb_spec i k),
          (N.ltb_spec k (i + N.of_nat (S n))), (N.eqb_spec k i); simpl; try lia; try reflexivity; subst; reflexivity.
Qed.

(** The characters that have no entry yet. *)
Fixpoint missing (get : N -> option str) (n : nat) (i : N) : nat :=
  match n with
  | O => 0
  | S n' => match get i with None => 1 | Some _ => 0 end + missing get n' (i + 1)
  end.

Lemma missing_ext g g' : forall n i, (forall k, (i <= k)%N -> g k = g' k) -> missing g n i = missing g' n i.
Proof.
  induction n as [|n IH]; intros i H; [reflexivity|]. cbn [missing]. rewrite (H i) by lia. f_equal. apply IH. intros k K. apply H. lia.
Qed.

Lemma store_missing_spec m : 1 <= m -> forall n i t,
  wf t -> i <> 0%N -> t_used t + missing (table_get t) n i <= length (t_rows t) -> t_maxdata t <= m ->
  let t' := store_missing n i t in
  wf t' /\ length (t_rows t') = length (t_rows t) /\ t_used t' = t_used t + missing (table_get t) n i /\ t_maxdata t' <= m /\
  t_default t' = t_default t /\
  forall k, table_get t' k =
    match table_get t k with
    | Some d => Some d
    | None => if ((i <=? k) && (k <? i + N.of_nat n))%N then Some [Nb k] else None
    end.
Proof.
  intros Hm. induction n as [|n IH]; intros i t W I U M; cbv zeta; cbn [store_missing missing] in *.
  - splits; auto; try lia. intros k. destruct (table_get t k); [reflexivity|]. destruct (N.leb_spec i k); [|reflexivity].
    destruct (N.ltb_spec k (i + N.of_nat 0)); [lia|reflexivity].
  - destruct (table_get t i) as [d|] eqn:G.
    + destruct (IH (i + 1)%N t) as (W' & L' & U' & M' & D' & G'); auto; [lia|].
      splits; auto; try lia. intros k. rewrite G'. destruct (N.eq_dec k i) as [->|Nk]; [rewrite G; reflexivity|].
      destruct (table_get t k); [reflexivity|].
      destruct (N.leb_spec (i + 1) k), (N.ltb_spec k (i + 1 + N.of_nat n)), (N.leb_spec i k), (N.ltb_spec k (i + N.of_nat (S n)));
        simpl; try lia; reflexivity.
    + change (snprintf [Nb i]) with [Nb i]. set (t1 := fst (table_put t i [Nb i])).
      assert (U1 : t_used t1 = S (t_used t)) by (apply put_used; auto; lia).
      assert (L1 : length (t_rows t1) = length (t_rows t)) by apply table_put_length.
      assert (G1 : forall k, table_get t1 k = if (k =? i)%N then Some [Nb i] else table_get t k) by (intros k; apply table_get_put; auto; lia).
      assert (E : missing (table_get t1) n (i + 1) = missing (table_get t) n (i + 1)).
      { apply missing_ext. intros k K. rewrite G1. destruct (N.eqb_spec k i); [lia|reflexivity]. }
      destruct (IH (i + 1)%N t1) as (W' & L' & U' & M' & D' & G').
      * now apply wf_put.
      * lia.
      * rewrite E. lia.
      * apply put_maxdata; auto.
      * splits; auto; try lia.
        -- rewrite D'. apply table_put_default.
        -- intros k. rewrite G', G1. destruct (N.eqb_spec k i) as [->|Nk].
           ++ rewrite G. destruct (N.leb_spec i i), (N.ltb_spec i (i + N.of_nat (S n))); simpl; try lia; reflexivity.
           ++ destruct (table_get t k); [reflexivity|].
              destruct (N.leb_spec (i + 1) k), (N.ltb_spec k (i + 1 + N.of_nat n)), (N.leb_spec i k), (N.ltb_spec k (i + N.of_nat (S n)));
                simpl; try lia; reflexivity.
Qed.

Lemma wf_c_escape : wf builtin_c_escape_table.
Proof.
  pose (h := flat_map (fun r => match r_data r with Some d => [(r_key r, d)] | None => [] end) builtin_c_escape_rows).
  assert (W : wf (send (new_table 36 false) h)).
  { assert (X : wf (new_table 36 false)) by (rewrite new_table_eq; apply wf_empty, new_size_pos).
    clearbody h. revert X. generalize (new_table 36 false). induction h as [|[k d] h IH]; intros t X; [exact X|].
    cbn [send]. apply IH. now apply wf_put. }
  replace (send (new_table 36 false) h) with (mkTable builtin_c_escape_rows 36 4 None 0 false false 0x7f) in W
    by (vm_compute; reflexivity).
  destruct W as [H1 H2 H3 H4 H5 H6]. constructor; simpl in *; auto.
Qed.

Lemma resized_length t n h : (0 < n)%Z -> length (t_rows (table_resize t n h)) = Z.to_nat n.
Proof.
  intros H. unfold table_resize. rewrite put_rows_length. unfold table_init. cbn [t_rows]. rewrite repeat_length.
  destruct (Z.leb_spec n 0); [lia|reflexivity].
Qed.

Lemma put_rows_counts rows : forall t, wf t ->
  length (row_keys rows) + t_used t <= length (t_rows t) ->
  (forall r, In r rows -> r_key r <> 0%N /\ r_data r <> None) ->
  t_used (put_rows t rows) = t_used t + length rows.
Proof.
  induction rows as [|r rows IH]; intros t W U H; cbn [put_rows length]; [lia|].
  destruct (H r (or_introl eq_refl)) as [K D]. destruct (r_data r) as [d|]; [|easy].
  assert (E : row_keys (r :: rows) = r_key r :: row_keys rows).
  { unfold row_keys. cbn [filter]. destruct (N.eqb_spec (r_key r) 0); [easy|]. reflexivity. }
  rewrite E in U. cbn [length] in U.
  destruct (N.ltb_spec 0 (r_key r)); [|lia].
  assert (U1 : t_used (fst (table_put t (r_key r) d)) = S (t_used t)) by (apply put_used; auto; lia).
  assert (L1 : length (t_rows (fst (table_put t (r_key r) d))) = length (t_rows t)) by apply table_put_length.
  rewrite IH; [lia| now apply wf_put | lia | intros x I; apply H; now right].
Qed.

Lemma put_rows_maxdata m rows : forall t, t_maxdata t <= m ->
  (forall r d, In r rows -> r_data r = Some d -> length d <= m) -> t_maxdata (put_rows t rows) <= m.
Proof.
  induction rows as [|r rows IH]; intros t T H; [exact T|]. cbn [put_rows]. apply IH.
  - destruct (r_data r) as [d|] eqn:E; [|exact T]. destruct (0 <? r_key r)%N; [|exact T]. apply put_maxdata; auto.
    apply (H r d); auto. now left.
  - intros r' d I. apply H. now right.
Qed.

(** The table of the first step. *)
Lemma first_table (n : Z) : (36 <= n)%Z ->
  let t := table_resize builtin_c_escape_table n true in
  wf t /\ length (t_rows t) = Z.to_nat n /\ t_used t = 36 /\ t_maxdata t <= 4 /\ t_default t = None /\
  forall k, table_get t k = table_get builtin_c_escape_table k.
Proof.
  intros H. cbv zeta. splits.
  - apply wf_resize.
  - apply resized_length. lia.
  - unfold table_resize. cbv zeta. rewrite put_rows_counts.
    + reflexivity.
    + rewrite table_init_eq. simpl. apply wf_empty, new_size_pos.
    + change (length (row_keys (t_rows builtin_c_escape_table))) with 36.
      rewrite table_init_eq. cbn [t_used t_rows]. rewrite repeat_length. unfold new_size. destruct (Z.leb_spec n 0); lia.
    + apply Forall_forall. repeat constructor; discriminate.
  - unfold table_resize. apply put_rows_maxdata; [simpl; lia|]. intros r d I.
    assert (X : forallb (fun r => match r_data r with Some d => length d <=? 4 | None => true end) builtin_c_escape_rows = true)
      by (vm_compute; reflexivity).
    rewrite forallb_forall in X. specialize (X r I). intros E. rewrite E in X. now apply Nat.leb_le.
  - apply table_resize_default.
  - intros k. apply (resize_preserves builtin_c_escape_table n true (row_keys builtin_c_escape_rows) k).
    + apply wf_c_escape.
    + apply (keys_of_row_keys _ wf_c_escape).
    + change (length (row_keys builtin_c_escape_rows)) with 36. unfold new_size. destruct (Z.leb_spec n 0); lia.
Qed.

(** What the table has for a code point. *)
Definition escape_entry (k : N) : option str :=
  if (k =? 0)%N then None
  else if (k <? 0x80)%N then
    match table_get builtin_c_escape_table k with Some d => Some d | None => Some [Nb k] end
  else if (k <? 0x10000)%N then Some (backslash :: "u"%byte :: hex_upper 4 k)
  else if (k <? 0x110000)%N then Some (backslash :: "U"%byte :: hex_upper 8 k)
  else None.

Lemma c_escape_get_high k : (0x80 <= k)%N -> table_get builtin_c_escape_table k = None.
Proof.
  intros H. apply table_get_none_iff; [apply wf_c_escape|lia|]. intros i L E.
  assert (X : Forall (fun r => r_key r < 0x80)%N builtin_c_escape_rows) by (repeat constructor).
  rewrite Forall_forall in X. specialize (X (row_at builtin_c_escape_rows i)).
  change (t_rows builtin_c_escape_table) with builtin_c_escape_rows in *. rewrite E in X.
  assert (I : In (row_at builtin_c_escape_rows i) builtin_c_escape_rows) by (apply nth_In; exact L). specialize (X I). lia.
Qed.

Lemma generated_table :
  wf generate_c_escape_table /\ t_maxdata generate_c_escape_table <= 10 /\ t_default generate_c_escape_table = None /\
  forall k, table_get generate_c_escape_table k = escape_entry k.
Proof.
  unfold generate_c_escape_table. cbv zeta.
  destruct (first_table 0x110000 ltac:(lia)) as (W0 & L0 & U0 & M0 & D0 & G0).
  set (t0 := table_resize builtin_c_escape_table 0x110000 true) in *. clearbody t0.
  assert (C : missing (table_get t0) (N.to_nat (0x7F - 0x20)) 0x20 = 91).
  { rewrite (missing_ext _ (table_get builtin_c_escape_table)) by (intros; apply G0). vm_compute. reflexivity. }
  revert C. generalize (N2Nat.id (0x7F - 0x20)). generalize (N.to_nat (0x7F - 0x20)). intros n1 E1 C.
  generalize (N2Nat.id (0x10000 - 0x80)). generalize (N.to_nat (0x10000 - 0x80)). intros n2 E2.
  generalize (N2Nat.id (0x110000 - 0x10000)). generalize (N.to_nat (0x110000 - 0x10000)). intros n3 E3.
  change (0x7F - 0x20)%N with 95%N in E1. change (0x10000 - 0x80)%N with 65408%N in E2. change (0x110000 - 0x10000)%N with 1048576%N in E3.
  assert (L : N.of_nat (length (t_rows t0)) = 0x110000%N) by (rewrite L0; lia). clear L0.
  destruct (store_missing_spec 10 ltac:(lia) n1 0x20 t0) as (W1 & L1 & U1 & M1 & D1 & G1); [exact W0|lia|rewrite C; lia|lia|].
  rewrite C in U1. set (t1 := store_missing n1 _ t0) in *. clearbody t1.
  destruct (store_range_spec (fun i => backslash :: "u"%byte :: hex_upper 4 i) 10 n2 0x80 t1)
    as (W2 & L2 & U2 & M2 & D2 & G2); [exact W1|lia|lia|exact M1| |].
  { intros k K. cbn [length]. rewrite hex_upper_length; [lia|lia|]. change (16 ^ N.of_nat 4)%N with 0x10000%N. lia. }
  set (t2 := store_range n2 _ _ t1) in *. clearbody t2.
  destruct (store_range_spec (fun i => backslash :: "U"%byte :: hex_upper 8 i) 10 n3 0x10000 t2)
    as (W3 & L3 & U3 & M3 & D3 & G3); [exact W2|lia|lia|exact M2| |].
  { intros k K. cbn [length]. rewrite hex_upper_length; [lia|lia|]. change (16 ^ N.of_nat 8)%N with 0x100000000%N. lia. }
  set (t3 := store_range n3 _ _ t2) in *. clearbody t3.
  splits; [exact W3|exact M3|congruence|].
  intros k. rewrite G3, G2, G1, G0. rewrite E1, E2, E3. clear. unfold escape_entry.
  destruct (N.eqb_spec k 0) as [->|K0]; [reflexivity|].
  destruct (N.ltb_spec k 0x80) as [A|A].
  { destruct (N.leb_spec 0x10000 k); [lia|]. destruct (N.leb_spec 0x80 k); [lia|]. cbn [andb].
    destruct (table_get builtin_c_escape_table k) as [d|] eqn:E; [reflexivity|].
    destruct (N.leb_spec 0x20 k) as [B|B], (N.ltb_spec k (0x20 + 95)) as [B'|B']; cbn [andb];
      try reflexivity; exfalso; try lia.
    - assert (k = 0x7F)%N by lia. subst. discriminate E.
    - revert E. assert (X : forall n, (n < 31)%nat -> table_get builtin_c_escape_table (N.of_nat (S n)) <> None).
      { intros n Hn. do 31 (destruct n as [|n]; [discriminate|]). lia. }
      specialize (X (N.to_nat k - 1) ltac:(lia)). replace (N.of_nat (S (N.to_nat k - 1))) with k in X by lia. exact X. }
  rewrite c_escape_get_high by lia.
  destruct (N.ltb_spec k 0x10000) as [B|B].
  { destruct (N.leb_spec 0x10000 k); [lia|]. destruct (N.leb_spec 0x80 k); [|lia].
    destruct (N.ltb_spec k (0x80 + 65408)); [|lia]. cbn [andb].
    rewrite snprintf_short; [reflexivity|]. cbn [length]. rewrite hex_upper_length; [lia|lia|].
    change (16 ^ N.of_nat 4)%N with 0x10000%N. lia. }
  destruct (N.ltb_spec k 0x110000) as [E|E].
  { destruct (N.leb_spec 0x10000 k); [|lia]. destruct (N.ltb_spec k (0x10000 + 1048576)); [|lia].
    cbn [andb]. rewrite snprintf_short; [reflexivity|]. cbn [length]. rewrite hex_upper_length; [lia|lia|].
    change (16 ^ N.of_nat 8)%N with 0x100000000%N. lia. }
  destruct (N.ltb_spec k (0x10000 + 1048576)); [lia|]. rewrite andb_false_r.
  destruct (N.ltb_spec k (0x80 + 65408)); [lia|]. rewrite andb_false_r.
  destruct (N.ltb_spec k (0x20 + 95)); [lia|]. now rewrite andb_false_r.
Qed.

(** ** Single characters *)

Ltac not_simple := let c := fresh in let I := fresh in intros (c & I); unfold simple_escape in I; cbn [In] in I;
  repeat (destruct I as [I|I]; [discriminate I|]); exact I.

Lemma two_digits a b : (a < 16)%N -> (b < 16)%N -> digits 16 [digit_char a; digit_char b] (16 * a + b).
Proof.
  intros A B. exists [a; b]. split; [|split].
  - apply Forall2_cons; [now apply digit_char_digit|]. apply Forall2_cons; [now apply digit_char_digit|constructor].
  - repeat constructor; assumption.
  - unfold positional. cbn [fold_left]. lia.
Qed.

Lemma escape_entry_escapes k : (0 < k <= 0x10FFFF)%N -> exists d, escape_entry k = Some d /\ escapes k d.
Proof.
  intros H. unfold escape_entry. destruct (N.eqb_spec k 0) as [?|_]; [lia|]. destruct (N.ltb_spec k 0x80) as [A|A].
  - assert (X : forall n, n < 127 -> exists d,
      match table_get builtin_c_escape_table (N.of_nat (S n)) with Some d => Some d | None => Some [Nb (N.of_nat (S n))] end = Some d /\
      escapes (N.of_nat (S n)) d).
    { intros n Hn.
      do 127 (destruct n as [|n];
        [eexists; split; [vm_compute; reflexivity|];
         match goal with |- escapes ?k _ => let k' := eval vm_compute in k in change k with k';
         first [ apply es_simple; unfold simple_escape; cbn [In]; tauto
               | apply es_hex; [split; [vm_compute; auto|not_simple]|reflexivity|repeat constructor; vm_compute; tauto|
                   exact (two_digits (k' / 16) (k' mod 16) eq_refl eq_refl)]
               | apply es_plain; split; [vm_compute; split; [discriminate|reflexivity]|not_simple] ] end|]).
      lia. }
    destruct (X (N.to_nat k - 1) ltac:(lia)) as (d & E & Es). replace (N.of_nat (S (N.to_nat k - 1))) with k in * by lia. eauto.
  - destruct (N.ltb_spec k 0x10000) as [B|B].
    + eexists. split; [reflexivity|]. apply es_short; [lia| |apply hex_upper_case|apply hex_upper_digits].
      apply hex_upper_length; [lia|]. change (16 ^ N.of_nat 4)%N with 0x10000%N. lia.
    + destruct (N.ltb_spec k 0x110000) as [C|C]; [|lia].
      eexists. split; [reflexivity|]. apply es_long; [lia| |apply hex_upper_case|apply hex_upper_digits].
      apply hex_upper_length; [lia|]. change (16 ^ N.of_nat 8)%N with 0x100000000%N. lia.
Qed.
