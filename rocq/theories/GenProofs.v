(** * Proofs about the generator of built-in tables *)

From Coq Require Import Sorting.Sorted.

From Verif Require Import Base Stdio BaseFacts CleanSpec Table TableSpec TableProofs BuiltinTables ParseTable ParseTableSpec ParseTableProofs
  Options GenBuiltin GenSpec.

Local Open Scope nat_scope.

Lemma Forall2_same_length {A B} (R : A -> B -> Prop) l l' : Forall2 R l l' -> length l = length l'.
Proof. induction 1; simpl; auto. Qed.

(** ** Numbers *)

Lemma digit_char_digit d : (d < 16)%N -> digit (digit_char d) d.
Proof.
  intros H. left. unfold digit_char. rewrite (nth_error_nth' _ "0"%byte); [reflexivity|].
  change (length (bs "0123456789abcdef")) with 16. lia.
Qed.

Lemma positional_snoc base ds d : positional base (ds ++ [d]) = (base * positional base ds + d)%N.
Proof. unfold positional. now rewrite fold_left_app. Qed.

Lemma positional_zeros base n ds : positional base (repeat 0%N n ++ ds) = positional base ds.
Proof.
  unfold positional. induction n as [|n IH]; [reflexivity|]. cbn [repeat app fold_left].
  replace (base * 0 + 0)%N with 0%N by lia. exact IH.
Qed.

Lemma radix_digits base : (2 <= base <= 16)%N -> forall fuel n acc, (n < base ^ N.of_nat fuel)%N -> fuel <> 0 ->
  exists ds, radix base fuel n acc = map digit_char ds ++ acc /\ Forall (fun d => d < base)%N ds /\ positional base ds = n.
Proof.
  intros B. induction fuel as [|fuel IH]; intros n acc H F; [easy|]. cbn [radix].
  pose proof (N.mod_lt n base ltac:(lia)) as M. pose proof (N.div_mod n base ltac:(lia)) as D.
  destruct (N.eqb_spec (n / base) 0) as [Z|Z].
  - exists [(n mod base)%N]. split; [reflexivity|]. split; [auto|]. unfold positional. cbn [fold_left]. lia.
  - destruct (IH (n / base)%N (digit_char (n mod base) :: acc)) as (ds & E & Fd & P).
    + apply N.div_lt_upper_bound; [lia|]. rewrite Nat2N.inj_succ, N.pow_succ_r' in H. lia.
    + intros ->. change (N.of_nat 1) with 1%N in H. rewrite N.pow_1_r in H. apply Z. now apply N.div_small.
    + exists (ds ++ [(n mod base)%N]). split; [|split].
      * rewrite E, map_app, <- app_assoc. reflexivity.
      * apply Forall_app. auto.
      * rewrite positional_snoc, P. lia.
Qed.

Lemma number_digits base n : (2 <= base <= 16)%N -> digits base (number base n) n.
Proof.
  intros B. unfold number. destruct (radix_digits base B (S (N.to_nat (N.log2 n))) n []) as (ds & E & F & P); [|easy|].
  - rewrite Nat2N.inj_succ, N2Nat.id. eapply N.lt_le_trans with (2 ^ N.succ (N.log2 n))%N.
    + destruct n; [reflexivity|]. apply N.log2_spec. reflexivity.
    + apply N.pow_le_mono_l. lia.
  - rewrite E, app_nil_r. exists ds. split; [|split; [exact F|now symmetry]].
    clear -F B. induction F; cbn [map]; constructor; auto. apply digit_char_digit. lia.
Qed.

Lemma hex4_digits n : digits 16 (hex4 n) n.
Proof.
  unfold hex4. destruct (number_digits 16 n) as (ds & F & L & P); [lia|].
  exists (repeat 0%N (4 - length (number 16 n)) ++ ds). split; [|split].
  - apply Forall2_app; [|exact F]. induction (4 - length (number 16 n)); constructor; auto. left. reflexivity.
  - apply Forall_app. split; [|exact L]. apply Forall_forall. intros x I. apply repeat_spec in I. subst. lia.
  - now rewrite positional_zeros.
Qed.

Lemma dec_digits n : digits 10 (dec n) n.
Proof. apply number_digits. lia. Qed.

(** ** Escaping *)

(** The escaped text without the buffer. *)
Fixpoint escaped (s : str) : str :=
  match s with
  | [] => []
  | c :: r =>
    if beq c c_quote then backslash :: c :: escaped r
    else if beq c backslash then
      match r with
      | d :: _ => if beq d "u" || beq d "U" then c :: escaped r else backslash :: c :: escaped r
      | [] => backslash :: c :: escaped r
      end
    else c :: escaped r
  end.

Lemma escape_plain c s : c <> quote_mark -> c <> back_slash -> escaped (c :: s) = c :: escaped s.
Proof.
  intros Q B. cbn [escaped]. destruct (beq c c_quote) eqn:E; [apply beq_eq in E; now elim Q|].
  destruct (beq c backslash) eqn:E2; [apply beq_eq in E2; now elim B|]. reflexivity.
Qed.

Lemma digit_plain c d : digit c d -> c <> quote_mark /\ c <> back_slash.
Proof.
  intros [H|H]; apply nth_error_In in H; split; intros ->; cbn in H; intuition discriminate.
Qed.

Lemma escape_digits ds v s : digits 16 ds v -> escaped (ds ++ s) = ds ++ escaped s.
Proof.
  intros (l & F & _ & _). induction F as [|c d ds l H F IH]; [reflexivity|].
  destruct (digit_plain c d H). cbn [app]. now rewrite escape_plain, IH by assumption.
Qed.

Lemma escape_name n cp s : character_name n cp -> escaped (n ++ s) = n ++ escaped s.
Proof.
  intros [ds v _ H _|ds v _ H _]; cbn [app].
  - transitivity (back_slash :: escaped ("u"%byte :: ds ++ s)); [reflexivity|].
    rewrite escape_plain by discriminate. f_equal. f_equal. now apply (escape_digits ds v).
  - transitivity (back_slash :: escaped ("U"%byte :: ds ++ s)); [reflexivity|].
    rewrite escape_plain by discriminate. f_equal. f_equal. now apply (escape_digits ds v).
Qed.

Lemma escape_meant s d : meant s d -> literal (escaped s) d.
Proof.
  induction 1 as [|c s t N B M IH|n cp s t C M IH].
  - constructor.
  - destruct (Byte.eqb c quote_mark) eqn:Q; [apply Byte.byte_dec_bl in Q; subst; now apply lit_escape; [left|]|].
    destruct (Byte.eqb c back_slash) eqn:K; [apply Byte.byte_dec_bl in K; subst|].
    + assert (E : escaped (back_slash :: s) = back_slash :: back_slash :: escaped s).
      { cbn [escaped]. destruct s as [|d r]; [reflexivity|]. destruct (B eq_refl d r eq_refl) as [B1 B2].
        change (beq back_slash c_quote) with false. change (beq back_slash backslash) with true.
        destruct (beq d "u") eqn:E1; [apply beq_eq in E1; now elim B1|].
        destruct (beq d "U") eqn:E2; [apply beq_eq in E2; now elim B2|]. reflexivity. }
      rewrite E. apply lit_escape; auto.
    + assert (Q' : c <> quote_mark) by (intros ->; discriminate). assert (K' : c <> back_slash) by (intros ->; discriminate).
      rewrite escape_plain by assumption. now constructor.
  - rewrite (escape_name n cp) by assumption. now constructor.
Qed.

Lemma escape_length s : length (escaped s) <= 2 * length s.
Proof.
  induction s as [|c s IH]; [reflexivity|]. cbn [escaped].
  destruct (beq c c_quote); [simpl; lia|]. destruct (beq c backslash); [|simpl; lia].
  destruct s as [|d r]; [simpl in *; lia|].
  set (e := escaped (d :: r)) in *. clearbody e.
  destruct (beq d "u" || beq d "U")%bool; simpl in *; lia.
Qed.

Lemma escape_loop_ok cap : forall s acc, (N.of_nat (length acc + length (escaped s)) <= cap)%N ->
  escape_loop cap acc s = Ok (rev (escaped s) ++ acc).
Proof.
  induction s as [|c s IH]; intros acc H; [reflexivity|]. cbn [escape_loop escaped] in *.
  destruct (beq c c_quote).
  { cbn [length] in H. rewrite wr_ok by lia. cbn [bind]. rewrite wr_ok by (cbn [length]; lia). cbn [bind].
    rewrite IH by (cbn [length]; lia). cbn [rev]. now rewrite <- !app_assoc. }
  destruct (beq c backslash) eqn:B.
  2:{ cbn [length] in H. rewrite wr_ok by lia. cbn [bind]. rewrite IH by (cbn [length]; lia). cbn [rev]. now rewrite <- !app_assoc. }
  destruct s as [|d r].
  - cbn [escaped length] in H. change (beq NUL "u") with false. change (beq NUL "U") with false. cbn [negb andb].
    rewrite wr_ok by lia. cbn [bind]. rewrite wr_ok by (cbn [length]; lia). cbn [bind]. rewrite IH by (cbn [escaped length]; lia). reflexivity.
  - cbv zeta. rewrite <- negb_orb. destruct (beq d "u" || beq d "U")%bool; cbn [negb bind].
    + cbn [length] in H. rewrite wr_ok by lia. cbn [bind]. rewrite IH by (cbn [length]; lia). cbn [rev]. now rewrite <- !app_assoc.
    + cbn [length] in H. rewrite wr_ok by lia. cbn [bind]. rewrite wr_ok by (cbn [length]; lia). cbn [bind].
      rewrite IH by (cbn [length]; lia). cbn [rev]. now rewrite <- !app_assoc.
Qed.

Lemma escaped_nonul s : nonul s -> nonul (escaped s).
Proof.
  induction s as [|c s IH]; intros N; [exact N|]. apply nonul_cons in N. destruct N as [Nc N]. specialize (IH N).
  assert (K : nonul (backslash :: c :: escaped s)) by (rewrite !nonul_cons; split; [discriminate|auto]).
  assert (K' : nonul (c :: escaped s)) by (rewrite nonul_cons; auto).
  cbn [escaped]. destruct (beq c c_quote); [exact K|]. destruct (beq c backslash); [|exact K']. destruct s; [exact K|]. destruct (_ || _)%bool; assumption.
Qed.

Lemma escape_ok s : nonul s -> (N.of_nat (length s) < 2 ^ 62)%N -> escape_string s = Ok (escaped s).
Proof.
  intros N L. unfold escape_string, strlen. rewrite size_t_small by lia. pose proof (escape_length s).
  rewrite escape_loop_ok by (simpl length; lia). cbn [bind]. rewrite app_nil_r, finish_ok by (rewrite rev_length; lia).
  rewrite rev_involutive, cstr_nonul; [reflexivity|]. now apply escaped_nonul.
Qed.

Lemma meant_plain s : ~ In new_line s -> (forall a d r, s = a ++ back_slash :: d :: r -> d <> "u"%byte /\ d <> "U"%byte) -> meant s s.
Proof.
  induction s as [|c s IH]; intros N H; [constructor|]. constructor.
  - intros ->. apply N. now left.
  - intros -> d r ->. now apply (H [] d r).
  - apply IH; [intros I; apply N; now right|]. intros a d r ->. now apply (H (c :: a) d r).
Qed.

(** ** One meaning *)

Lemma digits_unique ds v v' : digits 16 ds v -> digits 16 ds v' -> v = v'.
Proof.
  intros (l & F & L & ->) (l' & F' & L' & ->). f_equal. revert l' F' L L'.
  induction F as [|c d ds l H F IH]; intros l' F' L L'; inversion F'; subst; [reflexivity|].
  inversion L; subst. inversion L'; subst. f_equal; [|now apply IH].
  apply (digit_value_spec 16) in H; [|lia|assumption]. apply (digit_value_spec 16) in H2; [|lia|assumption]. congruence.
Qed.

Lemma app_same_length {A} (a a' b b' : list A) : length a = length a' -> a ++ b = a' ++ b' -> a = a' /\ b = b'.
Proof.
  revert a'. induction a as [|x a IH]; intros [|y a'] L E; try discriminate; [auto|].
  injection L as L. injection E as -> E. destruct (IH a' L E) as [-> ->]. auto.
Qed.

Lemma name_unique n cp n' cp' s s' : character_name n cp -> character_name n' cp' -> n ++ s = n' ++ s' ->
  n = n' /\ cp = cp' /\ s = s'.
Proof.
  intros N N' E. destruct N as [ds v L D U|ds v L D U]; destruct N' as [ds' v' L' D' U'|ds' v' L' D' U'];
    cbn [app] in E; try discriminate.
  all: injection E as E; destruct (app_same_length ds ds' s s') as [-> ->]; [congruence|exact E|];
    rewrite (digits_unique ds' v v' D D'); auto.
Qed.

Lemma name_head n cp s c r : character_name n cp -> n ++ s = c :: r -> c = back_slash /\ exists d q, r = d :: q /\ (d = "u"%byte \/ d = "U"%byte).
Proof. intros [ds v _ _ _|ds v _ _ _] E; cbn [app] in E; injection E as <- <-; eauto 6. Qed.

Lemma meant_unique s d : meant s d -> forall d', meant s d' -> d = d'.
Proof.
  induction 1 as [|c s t N B M IH|n cp s t C M IH]; intros d' M'.
  - inversion M' as [|?|n cp s t C _ E]; [reflexivity|]. destruct C; discriminate.
  - inversion M' as [|c' s' t' N' B' M2|n cp s' t' C M2 E]; subst.
    + f_equal. auto.
    + destruct (name_head _ _ _ _ _ C E) as (-> & d & q & -> & D). destruct (B eq_refl d q eq_refl). destruct D; easy.
  - remember (n ++ s) as u eqn:Eu. destruct M' as [|c' s' t' N' B' M2|n' cp' s' t' C' M2].
    + destruct C; discriminate.
    + symmetry in Eu. destruct (name_head _ _ _ _ _ C Eu) as (-> & d & q & -> & D). destruct (B' eq_refl d q eq_refl). destruct D; easy.
    + destruct (name_unique _ _ _ _ _ _ C' C Eu) as (-> & -> & ->). f_equal. auto.
Qed.

Lemma encode_length cp : length (encode cp) <= 4.
Proof. unfold encode. destruct (cp <? 0x80)%N; [simpl; lia|]. destruct (cp <? 0x800)%N; [simpl; lia|]. destruct (cp <? 0x10000)%N; simpl; lia. Qed.

Lemma meant_length s d : meant s d -> length d <= length s.
Proof.
  induction 1 as [|c s t N B M IH|n cp s t C M IH]; simpl; try lia. rewrite !app_length. pose proof (encode_length cp).
  assert (6 <= length n) by (destruct C; simpl; lia). lia.
Qed.

(** ** The largest key *)

Definition keys_within (t : table) : Prop := Forall (fun r => r_key r <= t_maxkey t)%N (t_rows t).

Lemma set_row_forall P rows i r : Forall P rows -> P r -> Forall P (set_row rows i r).
Proof. intros F H. revert i. induction F; intros [|i]; simpl; auto. Qed.

Lemma put_within t k d : keys_within t -> keys_within (fst (table_put t k d)).
Proof.
  intros K. unfold table_put. destruct (k =? 0)%N; [exact K|]. destruct (t_length t =? t_used t); [exact K|].
  destruct (put_offset t k); [|exact K]. unfold keys_within. cbn [fst t_rows t_maxkey].
  destruct (N.ltb_spec (t_maxkey t) k).
  - apply set_row_forall; [|reflexivity]. eapply Forall_impl; [|exact K]. simpl. intros r. lia.
  - apply set_row_forall; [exact K|assumption].
Qed.

Lemma put_rows_within rows : forall t, keys_within t -> keys_within (put_rows t rows).
Proof.
  induction rows as [|r rows IH]; intros t K; [exact K|]. cbn [put_rows]. apply IH.
  destruct (r_data r); [|exact K]. destruct (0 <? r_key r)%N; [|exact K]. now apply put_within.
Qed.

Lemma init_within n k : Forall (fun r => r_key r <= k)%N (t_rows (table_init n)).
Proof. rewrite table_init_eq. apply Forall_forall. intros r I. apply repeat_spec in I. subst. simpl. lia. Qed.

Lemma resize_within t n h : keys_within (table_resize t n h).
Proof. unfold table_resize. apply put_rows_within. apply init_within. Qed.

Lemma built_within t : built t -> keys_within t.
Proof.
  induction 1 as [n|t k d B IH|t d B IH|t n h B IH|t I].
  - apply init_within.
  - now apply put_within.
  - exact IH.
  - apply resize_within.
  - destruct I as [<-|[<-|[<-|[<-|[]]]]]; apply resize_within.
Qed.

Lemma key_bound t k : built t -> table_get t k <> None -> (1 <= k <= t_maxkey t)%N.
Proof.
  intros B G. pose proof (built_wf t B) as W. destruct (N.eq_dec k 0) as [->|Z]; [now elim G|].
  destruct (table_get t k) as [d|] eqn:E; [|easy]. apply table_get_iff in E; auto. destruct E as (i & L & R).
  pose proof (built_within t B) as K. unfold keys_within in K. rewrite Forall_forall in K.
  specialize (K (row_at (t_rows t) i) (nth_In _ _ L)). rewrite R in K. simpl in K. lia.
Qed.

Lemma number_of_keys t : built t -> length (row_keys (t_rows t)) <= N.to_nat (t_maxkey t).
Proof.
  intros B. pose proof (keys_of_row_keys t (built_wf t B)) as [ND I].
  assert (incl (row_keys (t_rows t)) (map N.of_nat (seq 1 (N.to_nat (t_maxkey t))))).
  { intros k H. apply I, (key_bound t k B) in H. apply in_map_iff. exists (N.to_nat k). split; [lia|]. apply in_seq. lia. }
  apply NoDup_incl_length in H; auto. now rewrite map_length, seq_length in H.
Qed.

(** ** The table that is printed *)

Lemma put_rows_used rows : forall t, wf t ->
  (forall i, i < length rows -> (occ rows i <-> r_data (row_at rows i) <> None)) ->
  t_used (put_rows t rows) <= t_used t + length (row_keys rows).
Proof.
  induction rows as [|r rows IH]; intros t W D; [simpl; lia|]. cbn [put_rows].
  assert (D' : forall i, i < length rows -> (occ rows i <-> r_data (row_at rows i) <> None)).
  { intros i L. apply (D (S i)). simpl. lia. }
  unfold row_keys. cbn [filter]. destruct (r_data r) as [d|] eqn:E.
  - destruct (N.ltb_spec 0 (r_key r)) as [L|L].
    + eapply Nat.le_trans; [apply IH; [now apply wf_put|exact D']|].
      destruct (N.eqb_spec (r_key r) 0) as [X|X]; [lia|]. cbn [negb map length].
      destruct (table_put_cases t (r_key r) d W) as [[-> _]|(K & Lt & _)]; [unfold row_keys; simpl; lia|].
      destruct (table_put_accept t (r_key r) d W K Lt) as (off & -> & _). unfold row_keys. simpl. lia.
    + eapply Nat.le_trans; [apply IH; auto|]. unfold row_keys. destruct (negb _); simpl; lia.
  - eapply Nat.le_trans; [apply IH; auto|]. unfold row_keys. destruct (negb _); simpl; lia.
Qed.

Definition printed_table (hold : table) : table := table_resize hold (Z.of_N (t_maxkey hold) + 1) true.

Lemma printed_new_size hold : new_size (Z.of_N (t_maxkey hold) + 1) = S (N.to_nat (t_maxkey hold)).
Proof. unfold new_size. destruct (Z.leb_spec (Z.of_N (t_maxkey hold) + 1) 0); lia. Qed.

Lemma printed_get hold k : built hold -> table_get (printed_table hold) k = table_get hold k.
Proof.
  intros B. pose proof (built_wf hold B) as W. apply (resize_preserves hold _ true (row_keys (t_rows hold)) k W (keys_of_row_keys hold W)).
  rewrite printed_new_size. pose proof (number_of_keys hold B). lia.
Qed.

Lemma printed_used hold : built hold -> t_used (printed_table hold) = length (row_keys (t_rows (printed_table hold))).
Proof.
  intros B. pose proof (built_wf hold B) as W. assert (W' : wf (printed_table hold)) by apply wf_resize.
  apply Nat.le_antisymm.
  - rewrite <- (keys_of_length (printed_table hold) (row_keys (t_rows hold)) W').
    + unfold printed_table, table_resize. rewrite table_init_eq. cbn [t_rows t_used t_maxdata t_builtin t_maxkey].
      eapply Nat.le_trans; [apply put_rows_used; [apply wf_empty, new_size_pos|apply W]|]. simpl. lia.
    + destruct (keys_of_row_keys hold W) as [ND I]. split; [exact ND|]. intros k. rewrite printed_get by exact B. apply I.
  - destruct (wf_used _ W') as [U _]. unfold count_occ_rows in U. unfold row_keys. now rewrite map_length.
Qed.

(** Every key is in the row of its own number. *)
Definition aligned (rows : list row) : Prop :=
  forall i, i < length rows -> r_key (row_at rows i) = 0%N \/ r_key (row_at rows i) = N.of_nat i.

Lemma put_aligned t k d : t_hash t = true -> aligned (t_rows t) -> (k < N.of_nat (length (t_rows t)))%N ->
  aligned (t_rows (fst (table_put t k d))).
Proof.
  intros H A K. unfold table_put. destruct (k =? 0)%N; [exact A|]. destruct (t_length t =? t_used t); [exact A|].
  unfold put_offset. assert (E : table_hash (t_length t) k = N.to_nat k) by (unfold table_hash, t_length; now rewrite N.mod_small).
  rewrite E, H. assert (F : free_or k (row_at (t_rows t) (N.to_nat k)) = true).
  { apply free_or_true. destruct (A (N.to_nat k)) as [X|X]; [lia|auto|]. rewrite N2Nat.id in X. auto. }
  rewrite F. cbn [andb fst t_rows]. intros i L. rewrite set_row_length in L. destruct (Nat.eq_dec (N.to_nat k) i) as [<-|N].
  - rewrite row_at_set_same by exact L. right. simpl. lia.
  - rewrite row_at_set_other by exact N. now apply A.
Qed.

Lemma put_rows_aligned rows : forall t, t_hash t = true -> aligned (t_rows t) ->
  Forall (fun r => r_key r < N.of_nat (length (t_rows t)))%N rows -> aligned (t_rows (put_rows t rows)).
Proof.
  induction rows as [|r rows IH]; intros t H A F; [exact A|]. inversion F; subst. cbn [put_rows].
  destruct (r_data r) as [d|]; [|now apply IH]. destruct (0 <? r_key r)%N; [|now apply IH].
  apply IH; [now rewrite table_put_hash|now apply put_aligned|]. now rewrite table_put_length.
Qed.

Lemma printed_aligned hold : built hold -> aligned (t_rows (printed_table hold)).
Proof.
  intros B. unfold printed_table, table_resize. rewrite table_init_eq. cbn [t_rows t_used t_maxdata t_builtin t_maxkey].
  apply put_rows_aligned; [reflexivity| |].
  - intros i _. left. cbn [t_rows]. now rewrite row_at_repeat.
  - cbn [t_rows]. rewrite repeat_length, printed_new_size. eapply Forall_impl; [|exact (built_within hold B)]. simpl. intros r. lia.
Qed.

Definition occupied (r : row) : bool := negb (r_key r =? 0)%N.

Lemma aligned_sorted rows : aligned rows -> StronglySorted N.lt (map r_key (filter occupied rows)).
Proof.
  intros A.
  assert (G : forall rows n, (forall i, i < length rows -> r_key (row_at rows i) = 0%N \/ r_key (row_at rows i) = N.of_nat (n + i)) ->
            StronglySorted N.lt (map r_key (filter occupied rows)) /\
            Forall (fun k => N.of_nat n <= k)%N (map r_key (filter occupied rows))).
  { clear. induction rows as [|r rows IH]; intros n H; [split; constructor|]. cbn [filter].
    destruct (IH (S n)) as [I1 I2].
    { intros i L. destruct (H (S i)) as [X|X]; [simpl; lia|left; exact X|right]. unfold row_at in *. cbn [nth] in X. rewrite X. f_equal. lia. }
    pose proof (H 0 ltac:(simpl; lia)) as H0. unfold row_at in H0. cbn [nth] in H0.
    assert (I3 : Forall (fun k => N.of_nat n <= k)%N (map r_key (filter occupied rows))).
    { eapply Forall_impl; [|exact I2]. simpl. intros. lia. }
    assert (O : occupied r = negb (r_key r =? 0)%N) by reflexivity. rewrite O. clear O.
    destruct (N.eqb_spec (r_key r) 0) as [E|E]; cbn [negb]; [auto|].
    destruct H0 as [H0|H0]; [easy|]. cbn [map]. split; constructor; auto; [|lia].
    eapply Forall_impl; [|exact I2]. simpl. intros. lia. }
  apply (G rows 0). exact A.
Qed.

(** ** The declaration *)

(** [compiles r r']: the row printed for [r] is compiled to [r']. *)
Definition compiles (r r' : row) : Prop :=
  r_key r' = r_key r /\ exists d d', r_data r = Some d /\ r_data r' = Some d' /\ meant d d' /\ proper_text d.

Lemma rows_code_lines rows rows' : Forall2 compiles (filter occupied rows) rows' ->
  exists ls, rows_code rows = Ok (concat ls) /\ Forall2 row_line rows' ls.
Proof.
  revert rows'. induction rows as [|r rows IH]; intros rows' F; cbn [filter] in F.
  - inversion F. subst. exists []. split; [reflexivity|constructor].
  - unfold occupied in F at 1. cbn [rows_code]. unfold row_code. destruct (r_key r =? 0)%N eqn:Z; cbn [negb] in F.
    + destruct (IH _ F) as (ls & -> & F'). exists ls. auto.
    + inversion F as [|r0 r' rs rs' C F' E1 E2]. subst. destruct C as (K & d & d' & D & D' & M & Nd & Ld). rewrite D.
      rewrite escape_ok by (auto; lia). destruct (IH _ F') as (ls & -> & F2). cbn [bind]. eexists (_ :: ls). split; [cbn [concat]; reflexivity|]. constructor; [|exact F2].
      exists (r_key r), d', (hex4 (r_key r)), (escaped d). split; [|split; [|split; [|reflexivity]]].
      * destruct r' as [k' x']. simpl in *. subst. reflexivity.
      * apply hex4_digits.
      * now apply escape_meant.
Qed.

Definition compiled (t : table) (rows' : list row) : table :=
  mkTable rows' (t_used t) (t_maxdata t) (t_default t) (t_overwrites t) false true (t_maxkey t).

Lemma code_declares name file t rows' :
  Forall2 compiles (filter occupied (t_rows t)) rows' -> t_used t = length (filter occupied (t_rows t)) ->
  (forall d, t_default t = Some d -> literal d d) ->
  exists text, table_code name file t = Ok text /\ declares name text (compiled t rows') (loader_size (N.of_nat (t_used t))).
Proof.
  intros F U D. destruct (rows_code_lines _ _ F) as (ls & E & L). unfold table_code. rewrite E. cbn [bind].
  eexists. split; [reflexivity|]. unfold declares. cbn [compiled t_hash t_builtin t_used t_rows t_maxdata t_maxkey t_overwrites t_default].
  split; [reflexivity|]. split; [reflexivity|]. split; [rewrite U; now apply Forall2_same_length in F|].
  exists file, ls, (dec (N.of_nat (t_used t))), (dec (N.of_nat (t_maxdata t))), (hex4 (t_maxkey t)), (dec (N.of_nat (t_overwrites t))),
    (match t_default t with None => bs "NULL" | Some d => [c_quote] ++ d ++ [c_quote] end), (dec (loader_size (N.of_nat (t_used t)))).
  split; [exact L|]. repeat (split; [apply dec_digits || apply hex4_digits|]). split.
  - destruct (t_default t) as [d|]; [|reflexivity]. exists d. split; [now apply D|reflexivity].
  - reflexivity.
Qed.

(** ** What the compiled table answers *)

Lemma resize_rows t n h k d :
  NoDup (map r_key (t_rows t)) -> Forall (fun r => r_key r <> 0%N /\ r_data r <> None) (t_rows t) -> length (t_rows t) <= new_size n ->
  (table_get (table_resize t n h) k = Some d <-> In (mkRow k (Some d)) (t_rows t)).
Proof.
  intros ND F L. unfold table_resize. rewrite table_init_eq. cbn [t_used t_maxdata t_builtin t_maxkey].
  destruct (resize_start t n h) as [W0 G0]. rewrite table_init_eq in W0, G0. cbn [t_rows] in *.
  rewrite Forall_forall in F.
  assert (At : forall i, i < length (t_rows t) -> In (row_at (t_rows t) i) (t_rows t)) by (intros; now apply nth_In).
  destruct (put_rows_get (t_rows t) _ W0) with (k := k) as [P _].
  - intros i j Li Lj _ E. apply (proj1 (NoDup_nth (map r_key (t_rows t)) 0%N) ND); rewrite ?map_length; auto.
    change 0%N with (r_key empty_row). now rewrite !map_nth.
  - intros i Li. destruct (F _ (At i Li)). unfold occ. tauto.
  - intros. apply G0.
  - rewrite P; clear P.
    2:{ cbn [t_rows t_used]. rewrite repeat_length, Nat.sub_0_r. unfold row_keys. rewrite map_length.
        eapply Nat.le_trans; [|exact L]. clear. induction (t_rows t) as [|r l IH]; simpl; [lia|]. destruct (negb _); simpl; lia. }
    rewrite G0. destruct (find _ (t_rows t)) as [r|] eqn:Fd.
    + apply find_some in Fd. destruct Fd as [I E]. apply N.eqb_eq in E. destruct (F r I) as [K D].
      destruct (N.eqb_spec k 0) as [Z|Z]; [congruence|]. split.
      * intros H. destruct r; simpl in *. subst. exact I.
      * intros H. apply (In_nth _ _ empty_row) in I, H. destruct I as (i & Li & Ei), H as (j & Lj & Ej).
        assert (i = j).
        { apply (proj1 (NoDup_nth (map r_key (t_rows t)) 0%N) ND); rewrite ?map_length; auto.
          change 0%N with (r_key empty_row). rewrite !map_nth, Ei, Ej. simpl. congruence. }
        subst j. rewrite Ei in Ej. now rewrite Ej.
    + split; [discriminate|]. intros H. apply find_none with (2 := H) in Fd. simpl in Fd. now rewrite N.eqb_refl in Fd.
Qed.

Lemma loader_size_more used : (used < loader_size used)%N /\ (256 | loader_size used)%N.
Proof.
  unfold loader_size, BUILTIN_TABLE_MULTIPLE. split; [|apply N.divide_factor_r].
  pose proof (N.div_mod used 256 ltac:(lia)). pose proof (N.mod_lt used 256 ltac:(lia)). lia.
Qed.

Lemma exists_rows hold : built hold -> proper_texts hold -> (forall k d, table_get hold k = Some d -> exists d', meant d d') ->
  exists rows', Forall2 compiles (filter occupied (t_rows (printed_table hold))) rows'.
Proof.
  intros B PT M.
  assert (G : Forall (fun r => exists r', compiles r r') (filter occupied (t_rows (printed_table hold)))).
  { apply Forall_forall. intros r I. apply filter_In in I. destruct I as [I O]. apply (In_nth _ _ empty_row) in I. destruct I as (i & Li & Ei).
    assert (W : wf (printed_table hold)) by apply wf_resize. unfold occupied in O. apply negb_true_iff, N.eqb_neq in O.
    pose proof (wf_data _ W i Li) as D. unfold occ, row_at in D. rewrite Ei in D. destruct (r_data r) as [d|] eqn:Dr; [|now elim (proj1 D O)].
    assert (E : table_get (printed_table hold) (r_key r) = Some d).
    { apply table_get_iff; auto. exists i. split; auto. unfold row_at. rewrite Ei. destruct r; simpl in *; congruence. }
    rewrite printed_get in E by exact B. destruct (M _ _ E) as (d' & Md). exists (mkRow (r_key r) (Some d')). split; [reflexivity|].
    exists d, d'. split; [exact Dr|]. split; [reflexivity|]. split; [exact Md|]. exact (proper_get hold _ d B PT E). }
  induction G as [|r l (r' & H) G (rows' & IH)]; [exists []; constructor|]. exists (r' :: rows'). now constructor.
Qed.

Lemma compiles_in rows rows' k d' : Forall2 compiles rows rows' ->
  (In (mkRow k (Some d')) rows' <-> exists d, In (mkRow k (Some d)) rows /\ meant d d').
Proof.
  intros F. induction F as [|r r' rows rows' C F IH]; simpl.
  - split; [easy|]. now intros (? & [] & _).
  - rewrite IH. clear IH F. destruct r as [a x], r' as [a' x'], C as (K & d1 & d1' & E1 & E1' & M & _). simpl in *. subst a' x x'. split.
    + intros [H|(d & I & Md)]; [|eauto]. injection H as -> ->. eauto.
    + intros (d & [H|I] & Md); [|eauto]. injection H as -> ->. left. now rewrite (meant_unique _ _ M _ Md).
Qed.

Lemma printed_in hold k d : built hold ->
  (In (mkRow k (Some d)) (filter occupied (t_rows (printed_table hold))) <-> table_get hold k = Some d).
Proof.
  intros B. assert (W : wf (printed_table hold)) by apply wf_resize. rewrite <- printed_get by exact B. rewrite filter_In.
  destruct (N.eq_dec k 0) as [->|K]; [split; easy|]. rewrite table_get_iff by assumption. split.
  - intros [I _]. apply (In_nth _ _ empty_row) in I. destruct I as (i & L & E). eauto.
  - intros (i & L & E). split; [rewrite <- E; now apply nth_In|]. unfold occupied. simpl. now apply negb_true_iff, N.eqb_neq.
Qed.

Lemma sorted_nodup l : StronglySorted N.lt l -> NoDup l.
Proof.
  induction 1 as [|k l S IH F]; constructor; auto. intros I. rewrite Forall_forall in F. specialize (F _ I). lia.
Qed.

Lemma compiles_keys rows rows' : Forall2 compiles rows rows' -> map r_key rows' = map r_key rows.
Proof. induction 1 as [|r r' rows rows' [K _] F IH]; simpl; congruence. Qed.

Theorem generated_code locale file contents hold :
  parse_table locale contents = Ok (Some hold) -> (t_maxkey hold + 1 < 2 ^ 31)%N ->
  (forall k d, table_get hold k = Some d -> exists d', meant d d') -> (forall d, t_default hold = Some d -> literal d d) ->
  exists text t size,
    generate_loader locale file contents = Ok text /\ declares (bs "NEW") text t size /\
    (forall k d', table_get (loaded t size) k = Some d' <-> exists d, table_get hold k = Some d /\ meant d d') /\
    t_default (loaded t size) = t_default hold /\
    (N.of_nat (t_used t) < size)%N /\
    StronglySorted N.lt (map r_key (t_rows t)).
Proof.
  intros P S M D. pose proof (parse_table_built _ _ _ P) as B.
  pose proof (parse_table_proper _ _ _ P) as PT. destruct (exists_rows hold B PT M) as (rows' & F).
  assert (U : t_used (printed_table hold) = length (filter occupied (t_rows (printed_table hold)))).
  { rewrite printed_used by exact B. unfold row_keys. now rewrite map_length. }
  assert (D' : forall d, t_default (printed_table hold) = Some d -> literal d d) by (intros d; unfold printed_table; rewrite table_resize_default; apply D).
  destruct (code_declares (bs "NEW") file (printed_table hold) rows' F U D') as (text & E & C).
  exists text, (compiled (printed_table hold) rows'), (loader_size (N.of_nat (t_used (printed_table hold)))).
  assert (So : StronglySorted N.lt (map r_key rows')).
  { rewrite (compiles_keys _ _ F). apply aligned_sorted, printed_aligned, B. }
  destruct (loader_size_more (N.of_nat (t_used (printed_table hold)))) as [L _]. split; [|split; [exact C|split; [|split; [|split]]]].
  - unfold generate_loader. rewrite P. cbn [bind]. destruct (N.leb_spec (2 ^ 31) (t_maxkey hold + 1)); [lia|]. exact E.
  - intros k d'. unfold loaded. rewrite resize_rows; cbn [compiled t_rows].
    + rewrite (compiles_in _ _ _ _ F). split; intros (d & H & Md); exists d; split; auto; now apply printed_in.
    + now apply sorted_nodup.
    + apply Forall_forall. intros r I. split.
      * assert (Ik : In (r_key r) (map r_key rows')) by now apply in_map. rewrite (compiles_keys _ _ F) in Ik.
        apply in_map_iff in Ik. destruct Ik as (r0 & <- & I0). apply filter_In in I0. destruct I0 as [_ O]. unfold occupied in O. now apply negb_true_iff, N.eqb_neq in O.
      * clear -F I. induction F as [|a b la lb (_ & d & d' & _ & Db & _ & _) F IH]; [destruct I|]. destruct I as [<-|I]; auto. now rewrite Db.
    + apply Forall2_same_length in F. rewrite <- F, <- U. unfold new_size.
      destruct (Z.leb_spec (Z.of_N (loader_size (N.of_nat (t_used (printed_table hold))))) 0); lia.
  - unfold loaded. rewrite table_resize_default. cbn [compiled t_default]. apply table_resize_default.
  - exact L.
  - exact So.
Qed.

(** ** Where the generator is defined *)

Lemma put_rows_proper rows : forall t, proper_texts t -> Forall (fun r => forall d, r_data r = Some d -> proper_text d) rows -> proper_texts (put_rows t rows).
Proof.
  induction rows as [|r rows IH]; intros t P F; [exact P|]. inversion F; subst. cbn [put_rows]. apply IH; [|assumption].
  destruct (r_data r); [|exact P]. destruct (0 <? r_key r)%N; [|exact P]. apply put_proper; auto.
Qed.

Lemma printed_proper hold : proper_texts hold -> proper_texts (printed_table hold).
Proof.
  intros [F D]. unfold printed_table, table_resize. apply put_rows_proper; [|exact F]. split; [|exact D].
  cbn [t_rows]. rewrite table_init_eq. apply Forall_forall. intros r I d. apply repeat_spec in I. now subst.
Qed.

Lemma rows_code_total rows : Forall (fun r => forall d, r_data r = Some d -> proper_text d) rows ->
  (forall i, i < length rows -> (occ rows i <-> r_data (row_at rows i) <> None)) -> exists text, rows_code rows = Ok text.
Proof.
  induction rows as [|r rows IH]; intros F W; [now exists []|]. inversion F; subst. destruct IH as (b & E); [assumption| |].
  - intros i L. apply (W (S i)). simpl. lia.
  - cbn [rows_code]. rewrite E. unfold row_code. pose proof (W 0 ltac:(simpl; lia)) as O. unfold occ, row_at in O. cbn [nth] in O.
    destruct (N.eqb_spec (r_key r) 0); [cbn; eauto|]. destruct (r_data r) as [d|] eqn:D; [|tauto].
    destruct (H1 d eq_refl) as [Nd Ld]. rewrite escape_ok by (auto; lia). cbn [bind]. eauto.
Qed.

Theorem generator_defined locale file contents :
  (exists text, generate_loader locale file contents = Ok text) \/
  (parse_table locale contents = Ok None /\ generate_loader locale file contents = UB NullDeref) \/
  (exists hold, parse_table locale contents = Ok (Some hold) /\ (2 ^ 31 <= t_maxkey hold + 1)%N /\
                generate_loader locale file contents = UB IntOverflow).
Proof.
  unfold generate_loader. destruct (parse_table_total locale contents) as [[hold|] P]; rewrite P; cbn [bind]; [|auto].
  destruct (N.leb_spec (2 ^ 31) (t_maxkey hold + 1)); [right; right; eauto|]. left.
  fold (printed_table hold). unfold table_code.
  destruct (rows_code_total (t_rows (printed_table hold))) as (b & ->); [apply printed_proper, (parse_table_proper _ _ _ P)|apply wf_resize|].
  cbn [bind]. eauto.
Qed.
