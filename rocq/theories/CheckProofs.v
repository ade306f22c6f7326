(** * Proofs about check-table *)

From Verif Require Import Base BaseFacts Stdio StdioFacts Table TableSpec TableProofs Prog ParseTable ParseTableSpec ParseTableProofs
  TableFileSpec TableFileProofs GenBuiltin GenSpec GenProofs Escape EscapeSpec EscapeProofs MainSpec DumpProofs CleanSpec CheckTable CheckSpec.

Local Open Scope nat_scope.

(** ** Numbers *)

Lemma dec_shortest n : shortest n (dec n).
Proof. apply number_shortest. Qed.

Lemma number16_head n : n <> 0%N -> exists d r, number 16 n = digit_char d :: r /\ (0 < d < 16)%N.
Proof.
  intros Z. unfold number.
  destruct (radix_head 16 ltac:(lia) (S (N.to_nat (N.log2 n))) n []) as (d & r & E & D); [|exact Z|eauto].
  rewrite Nat2N.inj_succ, N2Nat.id. eapply N.lt_le_trans with (2 ^ N.succ (N.log2 n))%N.
  - apply N.log2_spec. lia.
  - apply N.pow_le_mono_l. lia.
Qed.

Lemma digit_char_zero d : (0 < d < 16)%N -> digit_char d <> "0"%byte /\ upper_digit (digit_char d) <> "0"%byte.
Proof.
  intros H. assert (E : exists k, k < 15 /\ d = N.of_nat (S k)). { exists (pred (N.to_nat d)). lia. }
  destruct E as (k & K & ->). do 15 (destruct k as [|k]; [split; discriminate|]). lia.
Qed.

Lemma number16_length n : n <> 0%N \/ length (number 16 n) = 1.
Proof. destruct (N.eq_dec n 0) as [->|H]; [right; reflexivity|now left]. Qed.

Lemma padded {A} (z : A) (s : list A) : length s = 1 \/ (exists c r, s = c :: r /\ c <> z) ->
  let p := repeat z (4 - length s) ++ s in
  length p = 4 \/ 4 < length p /\ exists c r, p = c :: r /\ c <> z.
Proof.
  intros H p. unfold p. rewrite app_length, repeat_length. destruct (Nat.le_gt_cases (length s) 4) as [L|L]; [left; lia|right].
  split; [lia|]. destruct H as [H|H]; [lia|]. replace (4 - length s) with 0 by lia. exact H.
Qed.

Lemma code_lower_hex n : in_hex false n (code_lower n).
Proof.
  exists (hex4 n). splits; [reflexivity|apply hex4_digits| |].
  - unfold hex4, lower_case. apply Forall_app. split.
    + apply Forall_forall. intros x I. apply repeat_spec in I. subst. now left.
    + destruct (number_radix n) as (ds & -> & _). apply Forall_forall. intros x I. apply in_map_iff in I.
      destruct I as (d & <- & _). apply digit_char_in.
  - apply padded. destruct (number16_length n) as [Z|Z]; [right|now left]. destruct (number16_head n Z) as (d & r & -> & D).
    eexists _, _. split; [reflexivity|]. now apply digit_char_zero.
Qed.

Lemma code_upper_hex n : in_hex true n (code_upper n).
Proof.
  exists (hex_upper 4 n). splits; [reflexivity|apply hex_upper_digits|apply hex_upper_case|].
  apply padded. rewrite map_length. destruct (number16_length n) as [Z|Z]; [right|now left].
  destruct (number16_head n Z) as (d & r & -> & D). eexists _, _. split; [reflexivity|]. now apply digit_char_zero.
Qed.

(** ** Counting *)

Lemma row_keys_count rows : length (row_keys rows) = count_occ_rows rows.
Proof. unfold row_keys, count_occ_rows. now rewrite map_length. Qed.

Lemma count_set_free rows i r : i < length rows -> r_key r <> 0%N ->
  count_occ_rows (set_row rows i r) = if (r_key (row_at rows i) =? 0)%N then S (count_occ_rows rows) else count_occ_rows rows.
Proof.
  unfold count_occ_rows, row_at. intros L K. apply N.eqb_neq in K.
  revert i L; induction rows as [|x rows IH]; intros [|i] L; cbn [length] in L; try lia; cbn [set_row nth filter].
  - rewrite K. cbn [negb length]. now destruct (r_key x =? 0)%N.
  - specialize (IH i ltac:(lia)). destruct (negb (r_key x =? 0)%N); cbn [length]; rewrite IH; now destruct (r_key (nth i rows empty_row) =? 0)%N.
Qed.

Lemma longest_app a b : longest (a ++ b) = Nat.max (longest a) (longest b).
Proof. induction a as [|x a IH]; cbn; [reflexivity|]. rewrite IH. lia. Qed.

Lemma max_if a b : (if a <? b then b else a) = Nat.max a b.
Proof. destruct (Nat.ltb_spec a b); lia. Qed.

(** ** Where entries go *)

Definition shown (r : row) : option (N * str) :=
  match r_data r with Some d => if (0 <? r_key r)%N then Some (r_key r, d) else None | None => None end.

Lemma shown_row t i : wf t -> i < length (t_rows t) ->
  shown (row_at (t_rows t) i) = None /\ r_key (row_at (t_rows t) i) = 0%N \/
  exists d, shown (row_at (t_rows t) i) = Some (r_key (row_at (t_rows t) i), d) /\ r_key (row_at (t_rows t) i) <> 0%N.
Proof.
  intros W L. pose proof (wf_data t W i L) as D. unfold occ, shown in *. destruct (r_data (row_at (t_rows t) i)) as [d|].
  - right. exists d. destruct (N.ltb_spec 0 (r_key (row_at (t_rows t) i))) as [X|X]; [split; [reflexivity|lia]|].
    exfalso. apply (proj2 D); [discriminate|]. lia.
  - left. split; [reflexivity|]. destruct (N.eq_dec (r_key (row_at (t_rows t) i)) 0) as [E|E]; [exact E|]. exfalso. exact (proj1 D E eq_refl).
Qed.

Lemma shown_in t k d : wf t -> In (Some (k, d)) (map shown (t_rows t)) -> exists i, i < length (t_rows t) /\ r_key (row_at (t_rows t) i) = k.
Proof.
  intros W I. apply in_map_iff in I. destruct I as (r & E & I). apply In_nth with (d := empty_row) in I. destruct I as (i & L & N).
  exists i. split; [exact L|]. unfold row_at. rewrite N. unfold shown in E. destruct (r_data r); [|discriminate].
  destruct (0 <? r_key r)%N; [|discriminate]. now injection E.
Qed.

Lemma set_row_split r : forall rows i, i < length rows ->
  rows = firstn i rows ++ row_at rows i :: skipn (S i) rows /\ set_row rows i r = firstn i rows ++ r :: skipn (S i) rows.
Proof.
  unfold row_at. induction rows as [|x rows IH]; intros [|i] L; cbn [length] in L; try lia; cbn [set_row firstn skipn nth app].
  - split; reflexivity.
  - destruct (IH i ltac:(lia)) as (A & B). split; f_equal; [exact A|exact B].
Qed.

Lemma goes_put t k d off : wf t -> k <> 0%N -> t_used t < length (t_rows t) -> put_offset t k = Some off ->
  goes (t_hash t) k d (map shown (t_rows t)) (map shown (set_row (t_rows t) off (mkRow k (Some d)))).
Proof.
  intros W K U PO. destruct (put_offset_spec t k W K U) as (off' & PO' & L & FO & ON & PL). rewrite PO in PO'. injection PO' as <-.
  destruct (set_row_split (mkRow k (Some d)) (t_rows t) off L) as (A & B). rewrite B.
  assert (LA : length (map shown (firstn off (t_rows t))) = off) by (rewrite map_length, firstn_length; lia).
  assert (E : map shown (t_rows t) = map shown (firstn off (t_rows t)) ++ shown (row_at (t_rows t) off) :: map shown (skipn (S off) (t_rows t))).
  { rewrite A at 1. now rewrite map_app. }
  assert (LE : length (map shown (t_rows t)) = t_length t) by apply map_length.
  assert (FULL : forall i, i < length (t_rows t) -> occ (t_rows t) i -> shown (row_at (t_rows t) i) <> None).
  { intros i Li O. destruct (shown_row t i W Li) as [(_ & X)|(x & -> & _)]; [now apply O in X|discriminate]. }
  rewrite map_app. cbn [map]. replace (shown (mkRow k (Some d))) with (Some (k, d)).
  2: { unfold shown. cbn. destruct (N.ltb_spec 0 k); [reflexivity|lia]. }
  apply free_or_true in FO. destruct (shown_row t off W L) as [(SN & KZ)|(d' & SS & KZ)].
  - assert (NI : forall d', ~ In (Some (k, d')) (map shown (t_rows t))).
    { intros d' I. destruct (shown_in t k d' W I) as (i & Li & Ki). pose proof (ON i Li Ki). subst i. congruence. }
    assert (NI' : forall d', ~ In (Some (k, d')) (map shown (firstn off (t_rows t)) ++ map shown (skipn (S off) (t_rows t)))).
    { intros d' I. apply (NI d'). rewrite E. apply in_or_app. apply in_app_or in I. destruct I as [I|I]; [now left|right; now right]. }
    rewrite SN in E. rewrite E. destruct PL as [(H & O)|(O & H)].
    + apply goes_home; auto. rewrite <- E, LE, LA. exact O.
    + apply goes_first; auto.
      * intros I. apply In_nth with (d := None) in I. destruct I as (i & Li & Ni). rewrite LA in Li.
        apply (FULL i); [lia|now apply O|]. rewrite <- Ni. unfold row_at. rewrite A at 1. rewrite app_nth1 by (rewrite firstn_length; lia).
        symmetry. change None with (shown empty_row). apply map_nth.
      * intros Hh X. rewrite <- E, LE in X. specialize (H Hh). change (N.to_nat (k mod N.of_nat (t_length t))) with (table_hash (t_length t) k) in X.
        assert (Lh : table_hash (t_length t) k < length (t_rows t)) by (apply table_hash_lt, W).
        apply (FULL _ Lh H). apply (nth_error_nth _ _ None) in X. rewrite <- X. change None with (shown empty_row). unfold row_at. symmetry. apply map_nth.
  - destruct FO as [FO|FO]; [congruence|]. rewrite FO in SS. rewrite E, SS. apply goes_again.
Qed.

Lemma fill_app hash rows h rows' k d rows'' : fill hash rows h rows' -> goes hash k d rows' rows'' -> fill hash rows (h ++ [(k, d)]) rows''.
Proof. intros F G. induction F; cbn [app]; econstructor; eauto. constructor. Qed.

Lemma shown_empty n : map shown (repeat empty_row n) = repeat None n.
Proof. induction n as [|n IH]; [reflexivity|]. cbn [repeat map]. now rewrite IH. Qed.

(** ** How much is sought *)

Lemma at_home_row t k : wf t -> k <> 0%N ->
  (r_key (row_at (t_rows t) (table_hash (t_length t) k)) =? k)%N = true <-> at_home (map shown (t_rows t)) k.
Proof.
  intros W K. assert (L : table_hash (t_length t) k < length (t_rows t)) by (apply table_hash_lt, W).
  unfold at_home. rewrite map_length. change (N.to_nat (k mod N.of_nat (length (t_rows t)))) with (table_hash (t_length t) k).
  rewrite nth_error_map. pose proof (nth_error_nth' (t_rows t) empty_row L) as E. rewrite E. cbn [option_map].
  change (nth (table_hash (t_length t) k) (t_rows t) empty_row) with (row_at (t_rows t) (table_hash (t_length t) k)).
  rewrite N.eqb_eq. destruct (shown_row t _ W L) as [(-> & X)|(d & -> & X)]; split.
  - congruence.
  - now intros (d & [=]).
  - intros ->. now exists d.
  - intros (d' & [= ->]). reflexivity.
Qed.

Lemma nth_error_other {A} (a : list A) x y b i : i <> length a -> nth_error (a ++ x :: b) i = nth_error (a ++ y :: b) i.
Proof.
  intros N. destruct (Nat.lt_ge_cases i (length a)); [now rewrite !nth_error_app1|].
  rewrite !nth_error_app2 by lia. destruct (i - length a) eqn:E; [lia|reflexivity].
Qed.

Lemma nth_error_here {A} (a : list A) x b : nth_error (a ++ x :: b) (length a) = Some x.
Proof. rewrite nth_error_app2, Nat.sub_diag by lia. reflexivity. Qed.

Lemma goes_stays hash k d rows rows' k' d' : goes hash k d rows rows' -> In (Some (k', d')) rows -> at_home rows' k' <-> at_home rows k'.
Proof.
  assert (Y : forall a (x : option (N * str)) b, (match x with Some (k0, _) => k0 = k | None => k' <> k end) ->
    at_home (a ++ Some (k, d) :: b) k' <-> at_home (a ++ x :: b) k').
  { intros a x b H. unfold at_home. rewrite !app_length. cbn [length].
    set (i := N.to_nat _). clearbody i. destruct (Nat.eq_dec i (length a)) as [->|N].
    - rewrite !nth_error_here. destruct x as [[k0 e]|].
      + subst k0. split; intros (? & [= ->]); eauto.
      + split; [intros (? & [= E]); congruence|intros (? & [=])].
    - now rewrite (nth_error_other a (Some (k, d)) x b i N). }
  intros G I. destruct G as [a e b|a b _ _ NI|a b _ NI _]; apply Y; auto; intros ->.
  all: apply (NI d'); apply in_or_app; apply in_app_or in I; destruct I as [I|[I|I]]; [now left|discriminate|now right].
Qed.

Lemma sought_goes hash hash' k d rows rows' ks n : goes hash k d rows rows' -> Forall (fun k' => exists d', In (Some (k', d')) rows) ks ->
  sought hash' rows ks n -> sought hash' rows' ks n.
Proof.
  intros G F S. induction S as [|k' ks n H A S IH|k' ks n H S IH]; [constructor| |]; inversion F as [|? ? (d' & I) F']; subst.
  - apply sought_home; auto. now apply (goes_stays hash k d rows rows' k' d').
  - apply sought_away; auto. intros E A. apply (H E). now apply (goes_stays hash k d rows rows' k' d').
Qed.

Lemma sought_app hash rows ks n ks' n' : sought hash rows ks n -> sought hash rows ks' n' -> sought hash rows (ks ++ ks') (n + n').
Proof. intros A B. induction A; cbn [app plus]; [exact B|now apply sought_home|now apply sought_away]. Qed.

(** ** What a table has counted *)

Definition greatest_of (h : list (N * str)) (k : N) : Prop :=
  Forall (fun e => fst e <= k)%N h /\ (k = 0%N \/ In k (map fst h)).

(** A table of [size] rows after the entries [h]; [ow] overwrites were there before. *)
Record tallied (size : nat) (hash : bool) (ow : nat) (h : list (N * str)) (t : table) : Prop := {
  ta_wf : wf t;
  ta_size : length (t_rows t) = size;
  ta_hash : t_hash t = hash;
  ta_used : t_used t = length h;
  ta_get : forall k, table_get t k = last_for k h;
  ta_longest : t_maxdata t = longest (map snd h);
  ta_greatest : greatest_of h (t_maxkey t);
  ta_over : t_overwrites t + length (row_keys (t_rows t)) = ow + length h;
  ta_layout : laid_out hash size h (map shown (t_rows t))
}.

Lemma tallied_put size hash ow h t k d : tallied size hash ow h t -> k <> 0%N -> length h < size ->
  exists t' off, table_put t k d = (t', Some off) /\ tallied size hash ow (h ++ [(k, d)]) t' /\ t_default t' = t_default t /\
    goes hash k d (map shown (t_rows t)) (map shown (t_rows t')).
Proof.
  intros [W S H U G M [G1 G2] O LA] K L. assert (LU : t_used t < length (t_rows t)) by lia.
  destruct (table_put_accept t k d W K LU) as (off & E & PO).
  destruct (put_offset_spec t k W K LU) as (off' & PO' & P1 & P2 & _). rewrite PO in PO'. injection PO' as <-.
  pose proof (wf_put t k d W) as W'. pose proof (table_get_put t k d) as G'. pose proof (table_put_default t k d) as D'.
  pose proof (goes_put t k d off W K LU PO) as GP. rewrite H in GP.
  rewrite E in *. cbn [fst] in *. eexists _, off. split; [reflexivity|]. split; [|split; [exact D'|exact GP]].
  constructor; auto; cbn [t_rows t_hash t_used t_maxdata t_maxkey t_overwrites].
  - now rewrite set_row_length.
  - rewrite app_length. cbn. lia.
  - intros k'. rewrite G', last_for_app by auto. cbn [last_for]. destruct (k' =? k)%N; [reflexivity|apply G].
  - rewrite max_if, map_app, longest_app, M. cbn [map snd longest]. lia.
  - split.
    + apply Forall_app. split.
      * eapply Forall_impl; [|exact G1]. intros e X. cbn beta in *. destruct (N.ltb_spec (t_maxkey t) k); lia.
      * constructor; [|constructor]. cbn [fst]. destruct (N.ltb_spec (t_maxkey t) k); lia.
    + right. rewrite map_app. apply in_or_app. destruct (N.ltb_spec (t_maxkey t) k) as [X|X]; [right; now left|left].
      destruct G2 as [G2|G2]; [lia|exact G2].
  - rewrite row_keys_count, count_set_free by auto. rewrite row_keys_count in O. rewrite app_length. cbn [length].
    apply free_or_true in P2. destruct P2 as [P2|P2]; rewrite P2.
    + rewrite N.eqb_refl. destruct (N.eqb_spec 0 k); [congruence|]. lia.
    + rewrite N.eqb_refl. destruct (N.eqb_spec k 0); [congruence|]. lia.
  - eapply fill_app; [exact LA|exact GP].
Qed.

Lemma tallied_empty n hash ow d m : 0 < n -> m = 0%N -> tallied n hash ow [] (mkTable (repeat empty_row n) 0 0 d ow hash false m).
Proof.
  intros L ->. pose proof (wf_empty n 0 d ow hash false L) as W. constructor; auto; cbn [t_rows t_hash t_used t_maxdata t_maxkey t_overwrites].
  - apply repeat_length.
  - intros k. destruct (N.eq_dec k 0) as [->|K]; [reflexivity|]. apply table_get_none_iff; auto. cbn [t_rows].
    intros i _. rewrite row_at_repeat. cbn. congruence.
  - split; [constructor|now left].
  - rewrite row_keys_count, count_occ_repeat. cbn. lia.
  - rewrite shown_empty. constructor.
Qed.

Lemma tallied_send size hash ow h : forall acc t, tallied size hash ow acc t -> ~ In 0%N (map fst h) -> length acc + length h <= size ->
  tallied size hash ow (acc ++ h) (send t h) /\ t_default (send t h) = t_default t.
Proof.
  induction h as [|[k d] h IH]; intros acc t T Z L; cbn [send].
  - now rewrite app_nil_r.
  - cbn [map fst length] in *. destruct (tallied_put _ _ _ _ _ k d T) as (t' & off & E & T' & D & _).
    + intros ->. apply Z. now left.
    + lia.
    + rewrite E. cbn [fst]. rewrite <- D. change ((k, d) :: h) with ([(k, d)] ++ h). rewrite app_assoc. apply IH; auto.
      * intros I. apply Z. now right.
      * rewrite app_length. cbn. lia.
Qed.

(** The rows in use. *)
Definition stored (rows : list row) : list (N * str) :=
  flat_map (fun r => match r_data r with Some d => if (0 <? r_key r)%N then [(r_key r, d)] else [] | None => [] end) rows.

Lemma put_rows_send rows : forall t, put_rows t rows = send t (stored rows).
Proof.
  induction rows as [|r rows IH]; intros t; [reflexivity|]. cbn [put_rows stored flat_map].
  rewrite IH. destruct (r_data r) as [d|]; [|reflexivity]. destruct (0 <? r_key r)%N; reflexivity.
Qed.

Lemma stored_in rows k d : In (k, d) (stored rows) <-> k <> 0%N /\ exists i, i < length rows /\ row_at rows i = mkRow k (Some d).
Proof.
  unfold stored. rewrite in_flat_map. split.
  - intros (r & I & X). destruct (r_data r) as [d'|] eqn:E; [|easy]. destruct (N.ltb_spec 0 (r_key r)); [|easy].
    destruct X as [X|[]]. injection X as <- <-. split; [lia|]. apply In_nth with (d := empty_row) in I.
    destruct I as (i & L & N). exists i. split; [exact L|]. unfold row_at. rewrite N. destruct r; cbn in *. now subst.
  - intros (K & i & L & R). exists (row_at rows i). split; [now apply nth_In|]. rewrite R. cbn.
    destruct (N.ltb_spec 0 k); [now left|lia].
Qed.

Lemma stored_get t k d : wf t -> In (k, d) (stored (t_rows t)) <-> table_get t k = Some d.
Proof.
  intros W. rewrite stored_in. destruct (N.eq_dec k 0) as [->|K].
  - rewrite table_get_zero. split; [now intros []|discriminate].
  - rewrite (table_get_iff t k d W K). split; [now intros []|auto].
Qed.

Lemma stored_keys rows : (forall i, i < length rows -> (occ rows i <-> r_data (row_at rows i) <> None)) ->
  map fst (stored rows) = row_keys rows.
Proof.
  unfold row_keys, stored, occ, row_at. induction rows as [|r rows IH]; intros H; [reflexivity|]. cbn [flat_map filter].
  rewrite map_app, IH by (intros i L; apply (H (S i)); cbn; lia).
  specialize (H 0 ltac:(cbn; lia)). cbn [nth] in H. destruct (r_data r) as [d|]; destruct (N.eqb_spec (r_key r) 0) as [E|E]; cbn [negb].
  - exfalso. now apply H.
  - destruct (N.ltb_spec 0 (r_key r)); [reflexivity|lia].
  - reflexivity.
  - exfalso. now apply H in E.
Qed.

Lemma last_for_in h k d : NoDup (map fst h) -> last_for k h = Some d <-> In (k, d) h.
Proof.
  induction h as [|[k' d'] h IH]; cbn [map fst]; intros ND; [easy|]. inversion ND; subst. specialize (IH H2). cbn [last_for In].
  destruct (last_for k h) as [x|] eqn:E.
  - split.
    + intros [= ->]. right. now apply IH.
    + intros [X|X]; [|now apply IH]. injection X as -> ->. exfalso. apply H1.
      assert (I : In (k, x) h).
      { clear -E. induction h as [|[a b] h IH]; [discriminate|]. cbn [last_for] in E. destruct (last_for k h).
        - injection E as ->. right. now apply IH.
        - destruct (N.eqb_spec k a); [|discriminate]. injection E as ->. subst. now left. }
      now apply (in_map fst) in I.
  - destruct (N.eqb_spec k k') as [->|K].
    + split; [intros [= ->]; now left|]. intros [X|X]; [now injection X as ->|]. apply IH in X. discriminate.
    + split; [discriminate|]. intros [X|X]; [congruence|]. now apply IH in X.
Qed.

Lemma last_for_some k h : last_for k h <> None <-> In k (map fst h).
Proof.
  induction h as [|[a b] h IH]; cbn [last_for map fst In]; [easy|]. destruct (last_for k h) as [x|].
  - split; [|easy]. intros _. right. now apply IH.
  - destruct (N.eqb_spec k a) as [->|K]; [split; auto; easy|]. split; [easy|]. intros [X|X]; [congruence|]. now apply IH in X.
Qed.

Lemma tallied_keys size hash ow h t : tallied size hash ow h t -> NoDup (row_keys (t_rows t)) /\ forall k, In k (row_keys (t_rows t)) <-> In k (map fst h).
Proof.
  intros T. destruct (keys_of_row_keys t (ta_wf _ _ _ _ _ T)) as [ND I]. split; [exact ND|].
  intros k. rewrite I, (ta_get _ _ _ _ _ T). apply last_for_some.
Qed.

(** ** Copying *)

Lemma resize_tallied size hash ow h t n hash' : tallied size hash ow h t -> 0 < n -> length (row_keys (t_rows t)) <= n ->
  exists t', table_resize t (Z.of_nat n) hash' = t' /\ tallied n hash' (t_overwrites t) (stored (t_rows t)) t' /\
    t_default t' = t_default t /\ (forall k, table_get t' k = table_get t k).
Proof.
  intros T P L. eexists. split; [reflexivity|]. unfold table_resize. rewrite put_rows_send, table_init_eq.
  cbn [t_rows t_used t_maxdata t_builtin t_maxkey]. replace (new_size (Z.of_nat n)) with n.
  2: { unfold new_size. destruct (Z.leb_spec (Z.of_nat n) 0); lia. }
  pose proof (tallied_empty n hash' (t_overwrites t) (t_default t) 0%N P eq_refl) as T0.
  pose proof (ta_wf _ _ _ _ _ T) as W.
  destruct (tallied_send n hash' (t_overwrites t) (stored (t_rows t)) [] _ T0) as (T1 & D1).
  - intros I. apply in_map_iff in I. destruct I as ([k d] & E & I). cbn in E. subst k. apply stored_in in I. now destruct I.
  - cbn [length]. rewrite <- (map_length fst), stored_keys by apply W. exact L.
  - cbn [app] in T1. splits; [exact T1|exact D1|].
    intros k. rewrite (ta_get _ _ _ _ _ T1).
    assert (ND : NoDup (map fst (stored (t_rows t)))).
    { rewrite stored_keys by apply W. now apply (tallied_keys _ _ _ _ _ T). }
    destruct (table_get t k) as [d|] eqn:G.
    + apply last_for_in; auto. now apply stored_get.
    + destruct (last_for k (stored (t_rows t))) as [d|] eqn:E; [|reflexivity]. apply last_for_in in E; auto.
      apply stored_get in E; auto. congruence.
Qed.

(** ** Looking up *)

Lemma stored_flat rows : stored rows = in_rows (map shown rows).
Proof.
  unfold stored, in_rows, shown. induction rows as [|r rows IH]; [reflexivity|]. cbn [flat_map map]. rewrite IH. f_equal.
  destruct (r_data r); [|reflexivity]. now destruct (0 <? r_key r)%N.
Qed.

Lemma flat_in os e : In e (in_rows os) <-> In (Some e) os.
Proof.
  unfold in_rows. rewrite in_flat_map. split.
  - intros ([x|] & I & X); [|easy]. destruct X as [<-|[]]. exact I.
  - intros I. exists (Some e). split; [exact I|now left].
Qed.

Lemma counted_get_found t k d n : wf t -> table_get t k = Some d ->
  exists s, counted_get t k n = (Some d, mkCounters (S (c_hits n)) (c_misses n) (c_seeks n + s)) /\
    sought (t_hash t) (map shown (t_rows t)) [k] s.
Proof.
  intros W G. assert (K : k <> 0%N). { intros ->. now rewrite table_get_zero in G. }
  unfold counted_get, table_get in *. destruct (k =? 0)%N; [discriminate|].
  destruct (get_offset t k) as [off|]; [|discriminate]. rewrite G. pose proof (at_home_row t k W K) as A.
  destruct (t_hash t && _) eqn:E; cbn [c_hits c_misses c_seeks].
  - apply andb_true_iff in E. exists 0. rewrite Nat.add_0_r. split; [reflexivity|]. apply sought_home; [easy|now apply A|constructor].
  - exists 1. rewrite Nat.add_1_r. split; [reflexivity|]. apply sought_away; [|constructor]. intros H X. apply A in X. rewrite H, X in E. discriminate.
Qed.

Lemma sought_put size hash ow h t k d rows' n : tallied size hash ow h t -> goes hash k d (map shown (t_rows t)) rows' ->
  sought hash (map shown (t_rows t)) (map fst h) n -> sought hash rows' (map fst h) n.
Proof.
  intros T G. apply (sought_goes hash hash k d); [exact G|]. apply Forall_forall. intros k' I. apply last_for_some in I.
  rewrite <- (ta_get _ _ _ _ _ T) in I. destruct (table_get t k') as [x|] eqn:E; [|congruence]. exists x.
  apply flat_in. rewrite <- stored_flat. apply stored_get; [apply (ta_wf _ _ _ _ _ T)|exact E].
Qed.

Lemma counted_get_value t k n : fst (counted_get t k n) = table_get t k.
Proof.
  unfold counted_get, table_get. destruct (k =? 0)%N; [reflexivity|]. destruct (get_offset t k); reflexivity.
Qed.

(** ** Programs that print *)

Lemma tbind_ok {A B} (a : A) (k : A -> talk B) : tbind (quietly (Ok a)) k = k a.
Proof. unfold tbind, quietly. now destruct (k a). Qed.
Lemma tbind_done {A B} (a : A) (k : A -> talk B) : tbind (done a) k = k a.
Proof. apply tbind_ok. Qed.
Lemma tbind_say {A B} o t (a : A) (k : A -> talk B) : tbind ([(o, t)], Ok a) k = ((o, t) :: fst (k a), snd (k a)).
Proof. unfold tbind. now destruct (k a). Qed.
Lemma tbind_out {A B} out (a : A) (k : A -> talk B) : tbind (out, Ok a) k = (out ++ fst (k a), snd (k a)).
Proof. unfold tbind. now destruct (k a). Qed.

(** ** The first pass *)

Lemma entries_app a b : entries (a ++ b) = entries a ++ entries b.
Proof. apply flat_map_app. Qed.
Lemma defaults_app a b : defaults (a ++ b) = defaults a ++ defaults b.
Proof. apply flat_map_app. Qed.
Lemma default_of_app b : forall a d, default_of d (a ++ b) = default_of (default_of d a) b.
Proof. induction a as [|[]]; intros d; cbn; auto. Qed.

Record ck_inv (size : nat) (hash : bool) (ds : list directive) (st : ck_state) : Prop := {
  ci_table : tallied size hash 0 (entries ds) (ck_table st);
  ci_default : t_default (ck_table st) = default_of None ds;
  ci_hits : c_hits (ck_counters st) = length (entries ds);
  ci_misses : c_misses (ck_counters st) = 0;
  ci_seeks : sought hash (map shown (t_rows (ck_table st))) (map fst (entries ds)) (c_seeks (ck_counters st));
  ci_longest : ck_longest st = Nat.max 1 (Nat.max (longest (map snd (entries ds))) (longest (defaults ds)))
}.

Lemma ck_inv_nothing size hash ds i i' off off' t n last last' l :
  ck_inv size hash ds (mkCk i off t n last l) -> ck_inv size hash (ds ++ [Nothing]) (mkCk i' off' t n last' l).
Proof.
  intros [T D H M S G]. cbn [ck_table ck_counters ck_longest] in *.
  constructor; cbn [ck_table ck_counters ck_longest]; rewrite ?entries_app, ?defaults_app, ?default_of_app;
    cbn [entries defaults default_of flat_map app]; rewrite ?app_nil_r; auto.
Qed.

Lemma tallied_default size hash ow h t d : tallied size hash ow h t -> tallied size hash ow h (set_default t d).
Proof.
  intros [W S H U G M X O LA]. constructor; cbn; auto. now apply wf_set_default.
Qed.

Lemma ck_inv_default size hash ds i i' off off' t n last last' l x :
  ck_inv size hash ds (mkCk i off t n last l) ->
  ck_inv size hash (ds ++ [Default x]) (mkCk i' off' (set_default t x) n last' match x with Some d => if l <? length d then length d else l | None => l end).
Proof.
  intros [T D H M S G]. cbn [ck_table ck_counters ck_longest] in *.
  constructor; cbn [ck_table ck_counters ck_longest]; rewrite ?entries_app, ?defaults_app, ?default_of_app;
    cbn [entries defaults default_of flat_map]; rewrite ?app_nil_r; auto using tallied_default.
  destruct x as [d|]; rewrite ?max_if; cbn [app]; [rewrite longest_app; cbn [longest]; lia|now rewrite app_nil_r].
Qed.

(** What a line does: it ends the check, or it is followed by others. *)
Definition line_outcome (percent : nat -> nat -> str) size hash ds (st : ck_state) p (r : talk (option ck_state)) : Prop :=
  exists out, Forall2 (printed percent) (fst out) (fst r) /\
    match snd out with
    | None => snd r = Ok None /\ forall ps, review (ck_inside st) (ck_last st) (size - length (entries ds)) (p :: ps) (fst out) None
    | Some d => exists st', snd r = Ok (Some st') /\ ck_inv size hash (ds ++ [d]) st' /\
        forall ps rs res, review (ck_inside st') (ck_last st') (size - length (entries (ds ++ [d]))) ps rs res ->
          review (ck_inside st) (ck_last st) (size - length (entries ds)) (p :: ps) (fst out ++ rs) (option_map (cons d) res)
    end.

Lemma at_start_text s off r p : at_offset s off = Ok r -> stops r -> length r <= 1023 ->
  at_start s off p = done (match r with [] => inr tt | _ => inl (text_of p r) end).
Proof.
  intros O S L. unfold at_start. rewrite O, tbind_ok. destruct r as [|c r]; [reflexivity|].
  rewrite scan_text_of by auto. now rewrite tbind_ok.
Qed.

Lemma quiet_outcome percent size hash ds i off t n last l p s j off' last' :
  ck_inv size hash ds (mkCk i off t n last l) -> visible p s -> means [] i s j Nothing ->
  (i = false -> ~ begins_block s) -> last' = last ->
  line_outcome percent size hash ds (mkCk i off t n last l) p (done (Some (mkCk j off' t n last' l))).
Proof.
  intros I V M B ->. exists ([], Some Nothing). split; [constructor|]. cbn [snd fst]. eexists. split; [reflexivity|].
  split; [eapply ck_inv_nothing; exact I|]. intros ps rs res R. cbn [ck_inside ck_last] in *.
  rewrite entries_app in R. cbn [entries flat_map] in R. rewrite app_nil_r in R.
  eapply review_other; eauto. discriminate.
Qed.

Lemma hash_no_block s : is_hash s = true -> ~ begins_block s.
Proof.
  intros H (w & r & W & S). apply headed_iff in W. destruct (hash_word_at _ _ _ H W) as (w' & ->).
  apply start_iff in S. now rewrite hash_not_start in S.
Qed.

Lemma same_text_eq (a b : str) : str_eqb a b = true <-> a = b.
Proof. apply str_eqb_eq. Qed.

Lemma row_failure_text before code text after :
  row_failure before code text after = ended (before ++ code_lower code ++ bs " " ++ quoted text ++ after).
Proof. unfold row_failure, line, ended, quoted. now rewrite <- !app_assoc. Qed.

Lemma check_line_outcome percent size hash ds st p s : visible p s -> length s <= 1023 ->
  ck_inv size hash ds st -> line_outcome percent size hash ds st p (check_line s st).
Proof.
  intros V L I. destruct st as [i off t n last l]. unfold check_line. cbn [ck_inside ck_offset ck_table ck_counters ck_last ck_longest].
  fold (is_hash s). destruct (is_hash s) eqn:H.
  { apply quiet_outcome with (s := s); auto; [apply means_iff; unfold meaning; now rewrite H|]. intros _. now apply hash_no_block. }
  pose proof (scan_word_at s) as W. pose proof (word_at_stops s) as WS.
  pose proof (scan_number_at s) as N. pose proof (number_at_stops s) as NS.
  destruct i; cbn [negb].
  - assert (WD : forall off0, meaning [] true s = (match word_at s with Some (w, _) => negb (strncaseeq 5 w (bs "end")) | None => true end, Nothing) ->
      line_outcome percent size hash ds (mkCk true off t n last l) p
        (match scan_word s with
         | Some (w, k) =>
           let% parsed := quietly (store_parsed w) in
           done (Some (mkCk (negb (strncaseeq 5 parsed (bs "end"))) (Some k) t n last l))
         | None => done (Some (mkCk true off0 t n last l))
         end)).
    { intros off0 M. destruct (word_at s) as [[w r]|].
      - destruct W as (k & -> & _ & LW & _). rewrite store_short by lia. rewrite tbind_ok.
        apply quiet_outcome with (s := s); auto; [now apply means_iff|discriminate].
      - rewrite W. apply quiet_outcome with (s := s); auto; [now apply means_iff|discriminate]. }
    destruct (number_at s) as [[z r]|] eqn:NA.
    + destruct N as (k & -> & O & LR). destruct (z <? 0)%Z eqn:Z.
      * apply WD. unfold meaning. now rewrite H, NA, Z.
      * rewrite (at_start_text s (Some k) r []) by (eauto; lia). rewrite tbind_done.
        destruct r as [|c r].
        { apply quiet_outcome with (s := s); auto; [apply means_iff; unfold meaning; now rewrite H, NA, Z|discriminate]. }
        set (text := text_of [] (c :: r)). set (code := Z.to_N z).
        assert (M : means [] true s true (Entry code text)). { apply means_iff. unfold meaning. now rewrite H, NA, Z. }
        destruct I as [T D HI MI SE LO]. cbn [ck_table ck_counters ck_longest] in *.
        assert (DEC : (code = 0%N \/ size - length (entries ds) = 0) \/ (code <> 0%N /\ length (entries ds) < size)).
        { destruct (N.eq_dec code 0); [auto|]. destruct (Nat.lt_ge_cases (length (entries ds)) size); [auto|]. left. right. lia. }
        destruct DEC as [DEC|[K LT]].
        { assert (X : table_put t code text = (t, None)).
          { apply table_put_refuse. destruct DEC as [->|DEC]; [now left|right]. pose proof (ta_used _ _ _ _ _ T). pose proof (ta_size _ _ _ _ _ T).
            pose proof (wf_used _ (ta_wf _ _ _ _ _ T)). lia. }
          rewrite X. exists ([Not_added code text], None). split.
          - constructor; [|constructor]. rewrite row_failure_text. apply (pr_added percent code text _ (code_lower_hex code)).
          - cbn [snd fst]. split; [reflexivity|]. intros ps. cbn [ck_inside ck_last]. eapply review_refused; eauto. }
        destruct (tallied_put _ _ _ _ _ code text T K LT) as (t' & o & -> & T' & D' & GO).
        assert (G : table_get t' code = Some text).
        { rewrite (ta_get _ _ _ _ _ T'), last_for_app. cbn [last_for]. now rewrite N.eqb_refl. }
        destruct (counted_get_found t' code text n (ta_wf _ _ _ _ _ T') G) as (sk & -> & SK).
        rewrite (proj2 (str_eqb_eq text text) eq_refl).
        exists (order last code, Some (Entry code text)). cbn [fst snd]. rewrite (ta_hash _ _ _ _ _ T') in SK.
        set (st' := mkCk true (Some k) t' (mkCounters (S (c_hits n)) (c_misses n) (c_seeks n + sk)) code (if l <? length text then length text else l)).
        assert (Q : exists lines, Forall2 (printed percent) (order last code) lines /\
          (let% _ := (if (code <? last)%N then
                         say Stdout (line (bs "warning - code " ++ code_upper code ++ bs " appears after " ++ code_upper last))
                       else if (code =? last)%N then
                         say Stdout (line (bs "warning - code " ++ code_upper code ++ bs " appears twice in a row"))
                       else done tt) in done (Some st')) = (lines, Ok (Some st'))).
        { unfold order. destruct (code <? last)%N; [|destruct (code =? last)%N].
          - eexists. split; [|reflexivity]. constructor; [|constructor].
            apply (pr_order percent code last _ _ (code_upper_hex code) (code_upper_hex last)).
          - eexists. split; [|reflexivity]. constructor; [|constructor]. apply (pr_repeated percent code _ (code_upper_hex code)).
          - eexists. split; [|reflexivity]. constructor. }
        destruct Q as (lines & Q1 & ->). split; [exact Q1|]. exists st'. split; [reflexivity|].
        assert (EE : entries (ds ++ [Entry code text]) = entries ds ++ [(code, text)]) by apply entries_app.
        split.
        -- constructor; unfold st'; cbn [ck_table ck_counters ck_longest c_hits c_misses c_seeks]; rewrite ?EE, ?app_length; cbn [length].
           ++ exact T'.
           ++ rewrite D', default_of_app. exact D.
           ++ lia.
           ++ exact MI.
           ++ rewrite map_app. apply sought_app; [|exact SK]. eapply sought_put; eauto.
           ++ rewrite max_if, map_app, longest_app, defaults_app. cbn [map snd longest defaults flat_map]. rewrite app_nil_r. lia.
        -- intros ps rs res R. rewrite EE, app_length in R. cbn [length] in R. unfold st' in R. cbn [ck_inside ck_last] in *.
           replace (size - length (entries ds)) with (S (size - (length (entries ds) + 1))) by lia. eapply review_entry; eauto.
    + destruct N as (e & ->). change (-1 <? 0)%Z with true. cbv iota. apply WD. unfold meaning. now rewrite H, NA.
  - destruct (word_at s) as [[w r]|] eqn:WA.
    + destruct W as (k & -> & O & LW & LR). rewrite store_short by lia. cbn [bind]. rewrite tbind_ok.
      specialize (WS w r eq_refl). rewrite (at_start_text s (Some k) r w) by (auto; lia). rewrite !tbind_done.
      assert (HW : headed s w r) by (now apply headed_iff).
      destruct (strncaseeq 5 w (bs "start")) eqn:ST.
      * apply start_iff in ST. destruct r as [|c r].
        -- exists ([], Some Nothing). split; [constructor|]. cbn [fst snd]. eexists. split; [reflexivity|].
           split; [eapply ck_inv_nothing; exact I|]. intros ps rs res R. cbn [ck_inside ck_last] in *.
           rewrite entries_app in R. cbn [entries flat_map] in R. rewrite app_nil_r in R. eapply review_start; eauto.
        -- exists ([Skipped (text_of w (c :: r))], Some Nothing). split.
           { constructor; [|constructor]. apply pr_skipped. }
           cbn [fst snd tbind say done quietly]. eexists. split; [reflexivity|].
           split; [eapply ck_inv_nothing; exact I|]. intros ps rs res R. cbn [ck_inside ck_last] in *.
           rewrite entries_app in R. cbn [entries flat_map] in R. rewrite app_nil_r in R. eapply review_language; eauto.
           now apply text_at_iff.
      * assert (NB : ~ begins_block s).
        { intros (w' & r' & HW' & S'). apply headed_iff in HW'. rewrite WA in HW'. injection HW' as <- <-.
          apply start_iff in S'. congruence. }
        destruct (strncaseeq 7 w (bs "default")) eqn:DE.
        -- assert (X : forall x off' l', meaning [] false s = (false, Default x) ->
             l' = match x with Some d => if l <? length d then length d else l | None => l end ->
             line_outcome percent size hash ds (mkCk false off t n last l) p (done (Some (mkCk false off' (set_default t x) n last l')))).
           { intros x off' l' M ->. exists ([], Some (Default x)). split; [constructor|]. cbn [fst snd]. eexists. split; [reflexivity|].
             split; [eapply ck_inv_default; exact I|]. intros ps rs res R. cbn [ck_inside ck_last] in *.
             rewrite entries_app in R. cbn [entries flat_map] in R. rewrite app_nil_r in R.
             eapply review_other; eauto; [now apply means_iff|discriminate]. }
           assert (M : meaning [] false s = (false, Default match r with [] => None | _ => Some (text_of w r) end)).
           { unfold meaning. rewrite H, WA, ST, DE. reflexivity. }
           destruct r as [|c r]; apply X; auto.
        -- apply quiet_outcome with (s := s); auto. apply means_iff. unfold meaning. now rewrite H, WA, ST, DE.
    + rewrite W, tbind_ok. apply quiet_outcome with (s := s); auto.
      * apply means_iff. unfold meaning. now rewrite H, WA.
      * intros _ (w & r & HW & _). apply headed_iff in HW. congruence.
Qed.

Lemma pieces_next contents p ps : pieces contents (p :: ps) ->
  exists rest, next_line contents = Some (p, rest) /\ pieces rest ps /\ length rest < length contents /\ length (cstr p) <= 1023.
Proof.
  intros P. destruct (pieces_fgets _ _ _ P) as (rest & F & P' & E & NE). exists rest. unfold next_line.
  change (TABLE_BUFFER - 1) with 1023. splits; auto.
  - destruct contents as [|c contents]; [destruct p; [cbn in NE; lia|discriminate]|]. now rewrite F.
  - rewrite E, app_length. lia.
  - pose proof (cstr_length p). apply fgets_bytes_spec in F. destruct F as (_ & F & _). lia.
Qed.

Lemma check_loop_review percent size hash : forall ps contents fuel ds st,
  pieces contents ps -> length contents <= fuel -> ck_inv size hash ds st ->
  exists rs res, review (ck_inside st) (ck_last st) (size - length (entries ds)) ps rs res /\
    Forall2 (printed percent) rs (fst (check_loop fuel contents st)) /\
    match res with
    | None => snd (check_loop fuel contents st) = Ok None
    | Some ds' => exists st', snd (check_loop fuel contents st) = Ok (Some st') /\ ck_inv size hash (ds ++ ds') st'
    end.
Proof.
  induction ps as [|p ps IH]; intros contents fuel ds st P L I.
  - inversion P; subst. exists [], (Some []). splits; [constructor| |]; destruct fuel; cbn; rewrite ?app_nil_r; eauto.
  - destruct (pieces_next _ _ _ P) as (rest & F & P' & LR & LP). destruct fuel as [|fuel]; [lia|]. cbn [check_loop]. rewrite F.
    assert (V : visible p (cstr p)) by (now apply visible_iff).
    destruct (check_line_outcome percent size hash ds st p (cstr p) V LP I) as ([rs0 d] & O1 & O2). cbn [fst snd] in *.
    destruct (check_line (cstr p) st) as [out r]. cbn [fst snd] in *. destruct d as [d|].
    + destruct O2 as (st' & -> & I' & R). rewrite tbind_out. cbn [fst snd].
      destruct (IH rest fuel (ds ++ [d]) st' P' ltac:(lia) I') as (rs & res & R1 & R2 & R3).
      exists (rs0 ++ rs), (option_map (cons d) res). splits.
      * now apply R.
      * now apply Forall2_app.
      * destruct res as [ds'|]; cbn [option_map]; [|exact R3]. destruct R3 as (st2 & R3 & R4). exists st2. split; [exact R3|].
        now rewrite <- app_assoc in R4.
    + destruct O2 as (-> & R). rewrite tbind_out. cbn [fst snd done quietly]. exists rs0, None. rewrite app_nil_r. auto.
Qed.

Lemma set_hash_tallied z h :
  tallied (new_size z) h 0 [] (let t := table_init z in
    mkTable (t_rows t) (t_used t) (t_maxdata t) (t_default t) (t_overwrites t) h (t_builtin t) (t_maxkey t)).
Proof.
  cbv zeta. rewrite table_init_eq. cbn [t_rows t_used t_maxdata t_default t_overwrites t_builtin t_maxkey].
  apply tallied_empty; [apply new_size_pos|reflexivity].
Qed.

Lemma check_table_first percent file hash :
  exists rs res, first_pass file rs res /\ Forall2 (printed percent) rs (fst (check_table file hash)) /\
    match res with
    | None => snd (check_table file hash) = Ok None
    | Some (ds, size) => exists t n, snd (check_table file hash) = Ok (Some (t, n)) /\
        tallied size hash 0 (entries ds) t /\ t_default t = default_of None ds /\
        c_hits n = length (entries ds) /\ c_misses n = 0 /\
        sought hash (map shown (t_rows t)) (map fst (entries ds)) (c_seeks n)
    end.
Proof.
  destruct file as [|m|contents].
  - exists [], None. splits; [constructor|constructor|reflexivity].
  - exists [Unopened m], None. splits; [constructor| |reflexivity]. constructor; [|constructor]. apply pr_unopened.
  - destruct (pieces_total _ contents (le_n _)) as (ps & P). unfold check_table.
    assert (I : ck_inv (room contents) hash [] (mkCk false None
      (let t := table_init (Z.of_nat (table_capacity (length contents))) in
       mkTable (t_rows t) (t_used t) (t_maxdata t) (t_default t) (t_overwrites t) hash (t_builtin t) (t_maxkey t)) no_counters 0 1)).
    { rewrite <- table_capacity_room. constructor; cbn [ck_table ck_counters ck_longest entries flat_map no_counters c_hits c_misses c_seeks length]; auto.
      - apply set_hash_tallied.
      - constructor. }
    destruct (check_loop_review percent _ _ ps contents (length contents) [] _ P (le_n _) I) as (rs & res & R1 & R2 & R3).
    cbn [entries flat_map length ck_inside ck_last] in R1. rewrite Nat.sub_0_r in R1. cbv zeta in *.
    destruct (check_loop (length contents) contents _) as [out r]. cbn [fst snd] in *. destruct res as [ds|].
    + destruct R3 as (st & -> & [T D H M S G]). cbn [app] in *. exists (rs ++ lengths ds), (Some (ds, room contents)).
      rewrite tbind_out. split; [now apply (fp_fine _ ps)|].
      assert (X : exists l, Forall2 (printed percent) (lengths ds) l /\
        (let% _ := (if t_maxdata (ck_table st) =? ck_longest st then done tt
                 else say Stdout (line (bs "warning - table max length (" ++ dec (N.of_nat (t_maxdata (ck_table st))) ++
                        bs ") doesn't match our calculation (" ++ dec (N.of_nat (ck_longest st)) ++ bs ")"))) in
         done (Some (ck_table st, ck_counters st))) = (l, Ok (Some (ck_table st, ck_counters st)))).
      { unfold lengths. cbv zeta. rewrite <- G, <- (ta_longest _ _ _ _ _ T). destruct (_ =? _).
        - eexists. split; [|reflexivity]. constructor.
        - eexists. split; [|reflexivity]. constructor; [|constructor].
          apply (pr_lengths percent _ _ _ _ (dec_shortest _) (dec_shortest _)). }
      destruct X as (l & X1 & X2). cbv zeta. rewrite X2. cbn [fst snd]. split; [now apply Forall2_app|].
      exists (ck_table st), (ck_counters st). splits; auto.
    + rewrite R3, tbind_out. cbn [fst snd done quietly]. rewrite app_nil_r. exists rs, None. splits; auto. now apply (fp_refused _ ps).
Qed.

(** ** The second pass *)

Definition again_outcome (percent : nat -> nat -> str) (t : table) (st : again_state) p (r : talk (option again_state)) : Prop :=
  exists rs, Forall2 (printed percent) rs (fst r) /\
    ((snd r = Ok None /\ forall ps, recheck (table_get t) (ag_inside st) (p :: ps) rs None) \/
     exists st' ks m, snd r = Ok (Some st') /\
       ag_counters st' = mkCounters (length ks + c_hits (ag_counters st)) (c_misses (ag_counters st)) (c_seeks (ag_counters st) + m) /\
       sought (t_hash t) (map shown (t_rows t)) ks m /\
       forall ps rs' res, recheck (table_get t) (ag_inside st') ps rs' res ->
         recheck (table_get t) (ag_inside st) (p :: ps) (rs ++ rs') (option_map (app ks) res)).

Lemma option_map_nil {A} (o : option (list A)) : option_map (app []) o = o.
Proof. now destruct o. Qed.

Lemma quiet_again percent t i off n p s j off' d :
  visible p s -> means [] i s j d -> (forall code text, d <> Entry code text) ->
  ~ (i = false /\ exists w c r, headed s w (c :: r) /\ begins_with (bs "start") w) ->
  again_outcome percent t (mkAgain i off n) p (done (Some (mkAgain j off' n))).
Proof.
  intros V M D B. exists []. split; [constructor|]. right. exists (mkAgain j off' n), [], 0. splits; auto.
  - cbn [ag_counters length plus]. rewrite Nat.add_0_r. now destruct n.
  - constructor.
  - intros ps rs res R. rewrite option_map_nil. eapply recheck_other; eauto.
Qed.

Lemma again_line_outcome percent t st p s : visible p s -> length s <= 1023 -> wf t ->
  again_outcome percent t st p (again_line t s st).
Proof.
  intros V L WF. destruct st as [i off n]. unfold again_line. cbn [ag_inside ag_offset ag_counters].
  fold (is_hash s). destruct (is_hash s) eqn:H.
  { apply quiet_again with (s := s) (d := Nothing); auto; [apply means_iff; unfold meaning; now rewrite H|discriminate|].
    intros (_ & w & c & r & X & Y). apply (hash_no_block s H). now exists w, (c :: r). }
  pose proof (scan_word_at s) as W. pose proof (word_at_stops s) as WS.
  pose proof (scan_number_at s) as N. pose proof (number_at_stops s) as NS.
  destruct i; cbn [negb].
  - assert (WD : forall off0, meaning [] true s = (match word_at s with Some (w, _) => negb (strncaseeq 5 w (bs "end")) | None => true end, Nothing) ->
      again_outcome percent t (mkAgain true off n) p
        (match scan_word s with
         | Some (w, k) =>
           let% parsed := quietly (store_parsed w) in
           done (Some (mkAgain (negb (strncaseeq 5 parsed (bs "end"))) (Some k) n))
         | None => done (Some (mkAgain true off0 n))
         end)).
    { intros off0 M. destruct (word_at s) as [[w r]|].
      - destruct W as (k & -> & _ & LW & _). rewrite store_short by lia. rewrite tbind_ok.
        apply quiet_again with (s := s) (d := Nothing); auto; [now apply means_iff|discriminate|easy].
      - rewrite W. apply quiet_again with (s := s) (d := Nothing); auto; [now apply means_iff|discriminate|easy]. }
    destruct (number_at s) as [[z r]|] eqn:NA.
    + destruct N as (k & -> & O & LR). destruct (z <? 0)%Z eqn:Z.
      * apply WD. unfold meaning. now rewrite H, NA, Z.
      * rewrite (at_start_text s (Some k) r []) by (eauto; lia). rewrite tbind_done.
        destruct r as [|c r].
        { apply quiet_again with (s := s) (d := Nothing); auto; [apply means_iff; unfold meaning; now rewrite H, NA, Z|discriminate|easy]. }
        set (text := text_of [] (c :: r)). set (code := Z.to_N z).
        assert (M : means [] true s true (Entry code text)). { apply means_iff. unfold meaning. now rewrite H, NA, Z. }
        pose proof (counted_get_value t code n) as CV.
        assert (DEC : table_get t code = Some text \/ table_get t code <> Some text).
        { destruct (table_get t code) as [x|]; [|right; discriminate]. destruct (str_eqb text x) eqn:E.
          - apply str_eqb_eq in E. left. now subst.
          - right. intros [= ->]. now rewrite (proj2 (str_eqb_eq text text) eq_refl) in E. }
        destruct DEC as [G|G].
        -- destruct (counted_get_found t code text n WF G) as (sk & E & SK). rewrite E. rewrite (proj2 (str_eqb_eq text text) eq_refl).
           exists []. split; [constructor|]. right.
           exists (mkAgain true (Some k) (mkCounters (S (c_hits n)) (c_misses n) (c_seeks n + sk))), [code], sk.
           splits; [reflexivity|reflexivity|exact SK|]. intros ps rs res R. cbn [ag_inside app] in *. eapply recheck_found; eauto.
        -- destruct (counted_get t code n) as [x n']. cbn [fst] in CV. subst x.
           replace (match table_get t code with Some d => str_eqb text d | None => false end) with false.
           ++ exists [Not_found code text]. split.
              { constructor; [|constructor]. rewrite row_failure_text. apply (pr_found percent code text _ (code_lower_hex code)). }
              left. split; [reflexivity|]. intros ps. cbn [ag_inside]. eapply recheck_lost; eauto.
           ++ destruct (table_get t code) as [x|]; [|reflexivity]. symmetry. apply not_true_is_false. intros E. apply str_eqb_eq in E.
              apply G. now subst.
    + destruct N as (e & ->). change (-1 <? 0)%Z with true. cbv iota. apply WD. unfold meaning. now rewrite H, NA.
  - destruct (word_at s) as [[w r]|] eqn:WA.
    + destruct W as (k & -> & O & LW & LR). rewrite store_short by lia. cbn [bind]. rewrite tbind_ok.
      specialize (WS w r eq_refl). rewrite (at_start_text s (Some k) r w) by (auto; lia). rewrite !tbind_done.
      assert (HW : headed s w r) by (now apply headed_iff).
      destruct (strncaseeq 5 w (bs "start")) eqn:ST.
      * destruct r as [|c r].
        -- apply quiet_again with (s := s) (d := Nothing); auto; [apply means_iff; unfold meaning; now rewrite H, WA, ST|discriminate|].
           intros (_ & w' & c' & r' & X & _). apply headed_iff in X. rewrite WA in X. discriminate.
        -- apply start_iff in ST. exists [Skipped (text_of w (c :: r))]. split.
           { constructor; [|constructor]. apply pr_skipped. }
           right. eexists _, [], 0. split; [reflexivity|]. split; [cbn; rewrite Nat.add_0_r; now destruct n|]. split; [constructor|].
           intros ps rs res R. rewrite option_map_nil. cbn [ag_inside app] in *.
           eapply recheck_language; eauto. now apply text_at_iff.
      * assert (M : exists d, means [] false s false d /\ forall code text, d <> Entry code text).
        { destruct (strncaseeq 7 w (bs "default")) eqn:DE; eexists; split;
            try (apply means_iff; unfold meaning; rewrite H, WA, ST, DE; reflexivity); discriminate. }
        destruct M as (d & M & NE). apply quiet_again with (s := s) (d := d); auto.
        intros (_ & w' & c' & r' & X & S'). apply headed_iff in X. rewrite WA in X. injection X as <- _. apply start_iff in S'. congruence.
    + rewrite W, tbind_ok. apply quiet_again with (s := s) (d := Nothing); auto.
      * apply means_iff. unfold meaning. now rewrite H, WA.
      * discriminate.
      * intros (_ & w & c & r & HW & _). apply headed_iff in HW. congruence.
Qed.

Lemma again_loop_recheck percent t : wf t -> forall ps contents fuel st,
  pieces contents ps -> length contents <= fuel ->
  exists rs res, recheck (table_get t) (ag_inside st) ps rs res /\ Forall2 (printed percent) rs (fst (again_loop fuel t contents st)) /\
    match res with
    | None => snd (again_loop fuel t contents st) = Ok None
    | Some ks => exists st' m, snd (again_loop fuel t contents st) = Ok (Some st') /\ sought (t_hash t) (map shown (t_rows t)) ks m /\
        ag_counters st' = mkCounters (length ks + c_hits (ag_counters st)) (c_misses (ag_counters st)) (c_seeks (ag_counters st) + m)
    end.
Proof.
  intros WF. induction ps as [|p ps IH]; intros contents fuel st P L.
  - inversion P; subst. exists [], (Some []). splits; [constructor| |]; destruct fuel; cbn; eauto; exists st, 0; splits; eauto;
      try constructor; rewrite Nat.add_0_r; now destruct (ag_counters st).
  - destruct (pieces_next _ _ _ P) as (rest & F & P' & LR & LP). destruct fuel as [|fuel]; [lia|]. cbn [again_loop]. rewrite F.
    assert (V : visible p (cstr p)) by (now apply visible_iff).
    destruct (again_line_outcome percent t st p (cstr p) V LP WF) as (rs0 & O1 & O2).
    destruct (again_line t (cstr p) st) as [out r]. cbn [fst snd] in *.
    destruct O2 as [(-> & R)|(st' & ks & m & -> & C & SO & R)]; rewrite tbind_out; cbn [fst snd].
    + exists rs0, None. cbn [done quietly fst snd]. rewrite app_nil_r. auto.
    + destruct (IH rest fuel st' P' ltac:(lia)) as (rs & res & R1 & R2 & R3).
      exists (rs0 ++ rs), (option_map (app ks) res). splits.
      * now apply R.
      * now apply Forall2_app.
      * destruct res as [ks'|]; cbn [option_map]; [|exact R3].
        destruct R3 as (st2 & m' & E & S2 & H). exists st2, (m + m'). splits; [exact E|now apply sought_app|].
        rewrite H, C. cbn [c_hits c_misses c_seeks]. rewrite app_length. f_equal; lia.
Qed.

(** ** The report *)

Lemma holds_rows t : wf t -> holds (map shown (t_rows t)) (table_get t).
Proof.
  intros W. split.
  - intros k d. rewrite <- flat_in, <- stored_flat. now apply stored_get.
  - intros a k d b d' E I. rewrite <- flat_in in I.
    assert (ND : NoDup (map fst (stored (t_rows t)))).
    { rewrite stored_keys by apply W. apply row_keys_nodup, W. }
    rewrite stored_flat, E in ND. unfold in_rows in *. rewrite flat_map_app in *. cbn [flat_map app] in ND. rewrite map_app in ND. cbn [map fst] in ND.
    apply NoDup_remove_2 in ND. apply ND. rewrite <- map_app. now apply (in_map fst) in I.
Qed.

Lemma holds_ext rows f g : (forall k, f k = g k) -> holds rows f -> holds rows g.
Proof. intros E [A B]. split; [|exact B]. intros k d. rewrite A, E. reflexivity. Qed.

Lemma table_dump_listing percent verbose rows : (forall i, i < length rows -> (occ rows i <-> r_data (row_at rows i) <> None)) ->
  forall i, snd (table_dump verbose i rows) = Ok tt /\
    Forall2 (printed percent) (listing verbose i (map shown rows)) (fst (table_dump verbose i rows)).
Proof.
  induction rows as [|r rows IH]; intros H i; cbn [table_dump map listing]; [split; [reflexivity|constructor]|].
  assert (H' : forall i, i < length rows -> (occ rows i <-> r_data (row_at rows i) <> None)).
  { intros j L. apply (H (S j)). cbn. lia. }
  specialize (H 0 ltac:(cbn; lia)). unfold occ, row_at in H. cbn [nth] in H. destruct (IH H' (S i)) as (R1 & R2).
  unfold shown at 1. destruct (r_data r) as [d|]; destruct (N.eqb_spec (r_key r) 0) as [E|E].
  - exfalso. now apply H.
  - destruct (N.ltb_spec 0 (r_key r)); [|lia]. unfold say. rewrite tbind_say. cbn [fst snd]. split; [exact R1|]. constructor; [|exact R2].
    apply (pr_row percent i (r_key r) d _ _ (dec_shortest _) (code_lower_hex _)).
  - destruct verbose.
    + unfold say. rewrite tbind_say. cbn [fst snd app]. split; [exact R1|]. constructor; [|exact R2].
      apply (pr_empty_row percent i _ (dec_shortest _)).
    + rewrite tbind_done. cbn [app]. auto.
  - exfalso. now apply H in E.
Qed.

Definition summary_of (t : table) (n : counters) : summary :=
  mkSummary (map shown (t_rows t)) (t_used t) (c_hits n) (c_seeks n) (t_overwrites t) (t_maxdata t) (t_default t) (t_maxkey t).

Lemma table_stats_figures percent t n : c_misses n = 0 ->
  snd (table_stats percent t n) = Ok tt /\ Forall2 (printed percent) (figures (summary_of t n)) (fst (table_stats percent t n)).
Proof.
  intros M. unfold table_stats. cbv zeta. rewrite M. cbn [tbind say fst snd app]. split; [reflexivity|].
  unfold figures, summary_of. cbn [su_rows su_used su_hits su_seeks su_overwrites su_longest su_default su_greatest].
  rewrite map_length. fold (t_length t).
  constructor; [exact (pr_figure percent "used" _ _ (dec_shortest _))|].
  constructor; [exact (pr_figure percent "available" _ _ (dec_shortest _))|].
  constructor; [exact (pr_percent percent _ _)|].
  constructor; [exact (pr_figure percent "hits" _ _ (dec_shortest _))|].
  constructor; [exact (pr_figure percent "misses" _ _ (dec_shortest _))|].
  constructor; [exact (pr_figure percent "seeks" _ _ (dec_shortest _))|].
  constructor; [exact (pr_figure percent "overwrites" _ _ (dec_shortest _))|].
  constructor; [exact (pr_figure percent "longest entry" _ _ (dec_shortest _))|].
  constructor.
  { destruct (t_default t) as [d|]; [apply pr_default|apply pr_no_default]. }
  constructor; [exact (pr_greatest percent _ _ (code_lower_hex _))|constructor].
Qed.

(** What is printed once the table is there. *)
Definition reporting percent (o : check_options) (t : table) (n : counters) : talk unit :=
  let% _ := (if k_dump o then table_dump (k_verbose o) 0 (t_rows t) else done tt) in table_stats percent t n.

Lemma reporting_report percent o t n : wf t -> c_misses n = 0 ->
  snd (reporting percent o t n) = Ok tt /\ Forall2 (printed percent) (report o (summary_of t n)) (fst (reporting percent o t n)).
Proof.
  intros W M. destruct (table_stats_figures percent t n M) as (S1 & S2). unfold reporting, report. destruct (k_dump o).
  - destruct (table_dump_listing percent (k_verbose o) (t_rows t) (wf_data t W) 0) as (D1 & D2).
    destruct (table_dump _ _ _) as [out r]. cbn [fst snd] in *. subst r. rewrite tbind_out. cbn [fst snd]. split; [exact S1|].
    apply Forall2_app; auto.
  - rewrite tbind_done. auto.
Qed.

Lemma codes_count ds ks ks' : codes_of ds ks -> NoDup ks' -> (forall k, In k ks' <-> In k (map fst (entries ds))) -> length ks = length ks'.
Proof.
  intros [ND I] ND' I'. apply Nat.le_antisymm; apply NoDup_incl_length; auto; intros k H.
  - now apply I', I.
  - now apply I, I'.
Qed.

Lemma plain_summary_of hash ds size t n :
  tallied size hash 0 (entries ds) t -> t_default t = default_of None ds ->
  c_hits n = length (entries ds) -> sought hash (map shown (t_rows t)) (map fst (entries ds)) (c_seeks n) ->
  plain_summary hash ds size (summary_of t n).
Proof.
  intros T D H S. unfold plain_summary, summary_of. cbn [su_rows su_used su_hits su_seeks su_overwrites su_longest su_default su_greatest].
  splits.
  - rewrite map_length. apply (ta_size _ _ _ _ _ T).
  - apply (holds_ext _ (table_get t)); [apply (ta_get _ _ _ _ _ T)|]. apply holds_rows, (ta_wf _ _ _ _ _ T).
  - apply (ta_layout _ _ _ _ _ T).
  - apply (ta_used _ _ _ _ _ T).
  - exact H.
  - exact S.
  - intros ks C. destruct (tallied_keys _ _ _ _ _ T) as [ND I]. rewrite (codes_count ds ks _ C ND I).
    pose proof (ta_over _ _ _ _ _ T). lia.
  - apply (ta_longest _ _ _ _ _ T).
  - exact D.
  - exact (ta_greatest _ _ _ _ _ T).
Qed.

Lemma loader_size_nat n : Z.of_N (loader_size (N.of_nat n)) = Z.of_nat ((n / 256 + 1) * 256).
Proof.
  unfold loader_size, BUILTIN_TABLE_MULTIPLE. rewrite <- (N2Z.id (N.of_nat n)), nat_N_Z.
  rewrite N2Z.inj_mul, N2Z.inj_add, N2Z.inj_div. rewrite Z2N.id by lia. rewrite Nat2Z.inj_mul, Nat2Z.inj_add, Nat2Z.inj_div. reflexivity.
Qed.

Lemma longest_witness (h : list (N * str)) : (forall e, In e h -> length (snd e) <= longest (map snd h)) /\
  (longest (map snd h) = 0 \/ exists e, In e h /\ length (snd e) = longest (map snd h)).
Proof.
  induction h as [|e h [A B]]; cbn [map longest]; [split; [easy|now left]|]. split.
  - intros x [<-|I]; [lia|]. specialize (A x I). lia.
  - destruct (Nat.le_gt_cases (longest (map snd h)) (length (snd e))).
    + right. exists e. split; [now left|]. lia.
    + destruct B as [B|(x & I & B)]; [lia|]. right. exists x. split; [now right|]. lia.
Qed.

Lemma builtin_summary_of size hash ds t t' n looked :
  tallied size hash 0 (entries ds) t -> t_default t = default_of None ds ->
  tallied ((length (entries ds) / 256 + 1) * 256) true (t_overwrites t) (stored (t_rows t)) t' ->
  t_default t' = t_default t -> (forall x, table_get t' x = table_get t x) ->
  c_hits n = length looked -> sought true (map shown (t_rows t')) looked (c_seeks n) ->
  builtin_summary hash ds size looked (summary_of t' n).
Proof.
  intros T D T' D' G H S. unfold builtin_summary, summary_of. cbn [su_rows su_used su_hits su_seeks su_overwrites su_longest su_default su_greatest].
  pose proof (ta_wf _ _ _ _ _ T) as W. pose proof (ta_wf _ _ _ _ _ T') as W'.
  assert (SK : map fst (stored (t_rows t)) = row_keys (t_rows t)) by (apply stored_keys, W).
  assert (SL : length (stored (t_rows t)) = length (row_keys (t_rows t))) by (now rewrite <- SK, map_length).
  assert (IN : forall e, In (Some e) (map shown (t_rows t')) <-> In e (stored (t_rows t))).
  { intros [a b]. rewrite <- flat_in, <- stored_flat, !stored_get, G by auto. reflexivity. }
  destruct (longest_witness (stored (t_rows t))) as [LW1 LW2]. rewrite <- (ta_longest _ _ _ _ _ T') in LW1, LW2.
  splits.
  - rewrite map_length. apply (ta_size _ _ _ _ _ T').
  - apply (holds_ext _ (table_get t')); [|now apply holds_rows]. intros x. rewrite G. apply (ta_get _ _ _ _ _ T).
  - exists (map shown (t_rows t)). split; [apply (ta_layout _ _ _ _ _ T)|]. rewrite <- stored_flat. apply (ta_layout _ _ _ _ _ T').
  - exact H.
  - exact S.
  - intros ks C. destruct (tallied_keys _ _ _ _ _ T) as [ND I]. rewrite (codes_count ds ks _ C ND I). split.
    { rewrite <- SL. apply (ta_used _ _ _ _ _ T'). }
    destruct (tallied_keys _ _ _ _ _ T') as [ND' I']. pose proof (ta_over _ _ _ _ _ T') as O'. pose proof (ta_over _ _ _ _ _ T) as O.
    assert (X : length (row_keys (t_rows t')) = length (stored (t_rows t))).
    { rewrite <- (map_length fst (stored _)). apply Nat.le_antisymm; apply NoDup_incl_length; auto; try (intros x J; now apply I').
      rewrite SK. exact ND. }
    lia.
  - apply Forall_forall. intros [[a b]|] J; [|exact Logic.I]. apply IN in J. exact (LW1 _ J).
  - destruct LW2 as [LW2|([a b] & J & LW2)]; [now left|right]. exists a, b. split; [now apply IN|exact LW2].
  - now rewrite D'.
  - destruct (ta_greatest _ _ _ _ _ T') as [X Y]. rewrite SK in Y. destruct (tallied_keys _ _ _ _ _ T) as [ND I]. split.
    + apply Forall_forall. intros e J. apply (in_map fst), I in J. rewrite <- SK in J. apply in_map_iff in J.
      destruct J as (e' & <- & J). rewrite Forall_forall in X. auto.
    + destruct Y as [Y|Y]; [now left|right]. now apply I.
Qed.

Theorem check_file_checked percent o name first second :
  exists rs, checked o name first second rs (snd (check_file percent o name first second)) /\
    Forall2 (printed percent) rs (fst (check_file percent o name first second)).
Proof.
  unfold check_file. unfold say at 1. rewrite tbind_say.
  assert (C : forall rs out, Forall2 (printed percent) rs out ->
    Forall2 (printed percent) (Checking name :: rs) ((Stdout, line (bs "checking: " ++ name)) :: out)).
  { intros rs out F. constructor; [apply pr_checking|exact F]. }
  destruct (check_table_first percent first (k_hash o)) as (rs & res & F1 & F2 & F3).
  destruct (check_table first (k_hash o)) as [out r]. cbn [fst snd] in *.
  destruct res as [[ds size]|].
  - destruct F3 as (t & n & -> & T & D & H & M & S). rewrite tbind_out. cbn [fst snd].
    pose proof (ta_wf _ _ _ _ _ T) as W.
    assert (REP : forall t n, wf t -> c_misses n = 0 ->
      (let% _ := (let% _ := (if k_dump o then table_dump (k_verbose o) 0 (t_rows t) else done tt) in table_stats percent t n) in done 0%N) =
      (fst (reporting percent o t n), Ok 0%N)).
    { intros t0 n0 W0 M0. fold (reporting percent o t0 n0). destruct (reporting_report percent o t0 n0 W0 M0) as (R1 & _).
      destruct (reporting percent o t0 n0) as [o' r']. cbn [fst snd] in *. subst r'. rewrite tbind_out. cbn. now rewrite app_nil_r. }
    destruct (k_builtin o) eqn:B.
    + destruct second as [|m|contents].
      * cbn [check_table_again]. rewrite !tbind_done. cbn [done quietly fst snd]. rewrite app_nil_r. exists (Checking name :: rs).
        split; [|now apply C]. eapply ck_vanished; eauto.
      * unfold check_table_again. cbn [tbind say done quietly fst snd app]. exists (Checking name :: rs ++ [Unopened m]).
        split; [eapply ck_locked; eauto|]. apply C. apply Forall2_app; [exact F2|]. constructor; [apply pr_unopened|constructor].
      * unfold check_table_again. rewrite (ta_used _ _ _ _ _ T), loader_size_nat.
        destruct (resize_tallied _ _ _ _ _ ((length (entries ds) / 256 + 1) * 256) true T) as (t' & E & T' & D' & G').
        { lia. }
        { destruct (tallied_keys _ _ _ _ _ T) as [ND I].
          assert (Q : length (row_keys (t_rows t)) <= length (entries ds)).
          { rewrite <- (map_length fst (entries ds)). apply NoDup_incl_length; auto. intros k J. now apply I. }
          pose proof (Nat.div_mod (length (entries ds)) 256 ltac:(lia)). pose proof (Nat.mod_upper_bound (length (entries ds)) 256 ltac:(lia)). lia. }
        rewrite E. clear E. destruct (pieces_total _ contents (le_n _)) as (ps & P).
        pose proof (ta_wf _ _ _ _ _ T') as W'.
        destruct (again_loop_recheck percent t' W' ps contents (length contents) (mkAgain false None no_counters) P (le_n _)) as (rs' & res & R1 & R2 & R3).
        assert (R1' : recheck (fun k => last_for k (entries ds)) false ps rs' res).
        { clear -R1 G' T. cbn [ag_inside] in R1. set (f := fun k : N => last_for k (entries ds)).
          assert (EX : forall k, table_get t' k = f k). { intros k. rewrite G'. apply (ta_get _ _ _ _ _ T). }
          clearbody f. clear -R1 EX. induction R1; try (econstructor; eauto; fail).
          - eapply recheck_found; eauto. now rewrite <- EX.
          - eapply recheck_lost; eauto. now rewrite <- EX. }
        destruct (again_loop (length contents) t' contents (mkAgain false None no_counters)) as [out' r']. cbn [fst snd] in *. destruct res as [k|].
        -- destruct R3 as (st & m & -> & H3 & H1). cbn [ag_counters no_counters c_hits c_misses c_seeks plus] in *. rewrite Nat.add_0_r in H1.
           rewrite (ta_hash _ _ _ _ _ T') in H3. assert (H2 : c_misses (ag_counters st) = 0) by (now rewrite H1).
           rewrite tbind_out. cbn [done quietly fst snd option_map]. rewrite app_nil_r. rewrite tbind_out.
           rewrite REP by auto. cbn [fst snd].
           destruct (reporting_report percent o t' (ag_counters st) W' H2) as (_ & RR).
           exists (Checking name :: rs ++ rs' ++ report o (summary_of t' (ag_counters st))). split.
           ++ eapply ck_rebuilt; eauto. eapply builtin_summary_of; eauto; rewrite H1; [reflexivity|exact H3].
           ++ apply C. repeat apply Forall2_app; auto.
        -- rewrite R3, tbind_out. cbn [done quietly fst snd option_map]. rewrite app_nil_r, tbind_out. cbn [tbind done quietly fst snd].
           rewrite !app_nil_r. exists (Checking name :: rs ++ rs'). split; [eapply ck_lost; eauto|]. apply C. now apply Forall2_app.
    + rewrite tbind_done, REP by auto. cbn [fst snd]. destruct (reporting_report percent o t n W M) as (_ & RR).
      exists (Checking name :: rs ++ report o (summary_of t n)). split.
      * eapply ck_fine; eauto. eapply plain_summary_of; eauto.
      * apply C. now apply Forall2_app.
  - subst r. rewrite tbind_out. cbn [fst snd]. destruct (k_builtin o) eqn:B.
    + destruct second as [|m|contents].
      * cbn [check_table_again]. rewrite !tbind_done. cbn [done quietly fst snd]. rewrite app_nil_r. exists (Checking name :: rs).
        split; [|now apply C]. eapply ck_vanished; eauto.
      * cbn [check_table_again tbind quietly fst snd]. rewrite app_nil_r. exists (Checking name :: rs). split; [|now apply C].
        apply ck_null; auto. discriminate.
      * cbn [check_table_again tbind quietly fst snd]. rewrite app_nil_r. exists (Checking name :: rs). split; [|now apply C].
        apply ck_null; auto. discriminate.
    + rewrite !tbind_done. cbn [done quietly fst snd]. rewrite app_nil_r. exists (Checking name :: rs). split; [|now apply C].
      now apply ck_rejected.
Qed.

(** ** The command line *)

Definition known (c : byte) : option byte := if existsb (beq c) (bs "bdlhv") then Some c else None.

Lemma getopt_arguments posix args : forall skipped, (posix = true -> skipped = []) ->
  exists ls fs, arguments posix args ls fs /\ getopt posix args skipped = (map known ls, skipped ++ fs).
Proof.
  induction args as [|a args IH]; intros skipped S.
  - exists [], []. cbn. rewrite app_nil_r. split; [constructor|reflexivity].
  - assert (FILE : (forall c s, a <> "-"%byte :: c :: s) ->
      exists ls fs, arguments posix (a :: args) ls fs /\
        (if posix then ([], a :: args) else getopt posix args (skipped ++ [a])) = (map known ls, skipped ++ fs)).
    { intros N. destruct posix.
      - exists [], (a :: args). split; [now apply ar_stop|]. now rewrite S.
      - destruct (IH (skipped ++ [a])) as (ls & fs & A & E); [discriminate|]. exists ls, (a :: fs). split; [now apply ar_file|].
        rewrite E, <- app_assoc. reflexivity. }
    destruct a as [|c [|d r]]; cbn [getopt].
    + apply FILE. discriminate.
    + apply FILE. intros x s X. discriminate.
    + destruct (beq c "-") eqn:C; cbn [negb].
      * apply beq_eq in C. subst c. destruct (beq d "-" && match r with [] => true | _ => false end) eqn:DD.
        -- apply andb_true_iff in DD. destruct DD as [D1 D2]. apply beq_eq in D1. subst d. destruct r; [|discriminate].
           exists [], args. split; [apply (ar_dashes posix args)|reflexivity].
        -- destruct (IH skipped S) as (ls & fs & A & E). rewrite E. exists ((d :: r) ++ ls), fs. split.
           ++ apply ar_letters; [|exact A]. intros X. injection X as -> ->. discriminate.
           ++ now rewrite map_app.
      * apply FILE. intros x s X. injection X as -> _ _. discriminate.
Qed.

Lemma known_letter c : match known c with
  | None => ~ harmless c /\ c <> "h"%byte
  | Some d => d = c /\ (harmless c \/ c = "h"%byte)
  end.
Proof.
  unfold known, harmless. destruct (existsb (beq c) (bs "bdlhv")) eqn:E.
  - split; [reflexivity|]. apply existsb_exists in E. destruct E as (x & I & E). apply beq_eq in E. subst x. simpl in *. intuition.
  - assert (N : forall x, In x (bs "bdlhv") -> c <> x).
    { intros x I ->. assert (Q : existsb (beq x) (bs "bdlhv") = true) by (apply existsb_exists; exists x; split; [exact I|apply beq_refl]). congruence. }
    split; [|apply N; simpl; auto]. intros I. apply (N c); [|reflexivity]. simpl in *. intuition.
Qed.

Definition wished_more (ls : list byte) (o o' : check_options) : Prop :=
  (k_builtin o' = true <-> k_builtin o = true \/ In "b"%byte ls) /\ (k_dump o' = true <-> k_dump o = true \/ In "d"%byte ls) /\
  (k_hash o' = false <-> k_hash o = false \/ In "l"%byte ls) /\ (k_verbose o' = true <-> k_verbose o = true \/ In "v"%byte ls).

Lemma check_getopt_wished ls : forall o, exists ls1 ls2, ls = ls1 ++ ls2 /\ Forall harmless ls1 /\
  match ls2 with
  | [] => exists o', check_getopt (map known ls) o = done (inl o') /\ wished_more ls o o'
  | c :: _ =>
    c = "h"%byte /\ check_getopt (map known ls) o = ([(Stdout, ended (bs "check-table [-bdlhv] filename.tbl"))], Ok (inr 0%N)) \/
    ~ harmless c /\ c <> "h"%byte /\ check_getopt (map known ls) o = ([(Stderr, ended (bs "unknown option: ?"))], Ok (inr 255%N))
  end.
Proof.
  induction ls as [|c ls IH]; intros o.
  - exists [], []. splits; [reflexivity|constructor|]. exists o. split; [reflexivity|]. unfold wished_more. simpl. intuition.
  - pose proof (known_letter c) as K. cbn [map]. destruct (known c) as [d|].
    + destruct K as [-> K]. cbn [check_getopt].
      assert (GO : forall o2, harmless c ->
        (forall o', wished_more ls o2 o' -> wished_more (c :: ls) o o') ->
        exists ls1 ls2, c :: ls = ls1 ++ ls2 /\ Forall harmless ls1 /\
        match ls2 with
        | [] => exists o', check_getopt (map known ls) o2 = done (inl o') /\ wished_more (c :: ls) o o'
        | c :: _ =>
          c = "h"%byte /\ check_getopt (map known ls) o2 = ([(Stdout, ended (bs "check-table [-bdlhv] filename.tbl"))], Ok (inr 0%N)) \/
          ~ harmless c /\ c <> "h"%byte /\ check_getopt (map known ls) o2 = ([(Stderr, ended (bs "unknown option: ?"))], Ok (inr 255%N))
        end).
      { intros o2 HC WM. destruct (IH o2) as (ls1 & ls2 & E & F & R). exists (c :: ls1), ls2. splits; [cbn; now rewrite E|now constructor|].
        destruct ls2 as [|x ls2]; [|exact R]. destruct R as (o' & R1 & R2). exists o'. split; auto. }
      destruct (beq c "b") eqn:Eb; [|destruct (beq c "d") eqn:Ed; [|destruct (beq c "h") eqn:Eh; [|destruct (beq c "l") eqn:El]]].
      * apply beq_eq in Eb. subst c. apply GO; [left; reflexivity|]. unfold wished_more. simpl. intuition (congruence || auto).
      * apply beq_eq in Ed. subst c. apply GO; [right; left; reflexivity|]. unfold wished_more. simpl. intuition (congruence || auto).
      * apply beq_eq in Eh. subst c. exists [], ("h"%byte :: ls). splits; [reflexivity|constructor|]. left. split; reflexivity.
      * apply beq_eq in El. subst c. apply GO; [right; right; left; reflexivity|]. unfold wished_more. simpl. intuition (congruence || auto).
      * assert (V : c = "v"%byte).
        { destruct K as [K|K]; [|subst c; discriminate]. unfold harmless in K. simpl in K.
          destruct K as [<-|[<-|[<-|[<-|[]]]]]; try discriminate; reflexivity. }
        subst c. apply GO; [right; right; right; left; reflexivity|]. unfold wished_more. simpl. intuition (congruence || auto).
    + destruct K as [K1 K2]. exists [], (c :: ls). splits; [reflexivity|constructor|]. right. splits; auto.
Qed.

Theorem check_main_session percent posix args first second :
  check_session percent posix args first second (fst (check_main percent posix args first second)) (snd (check_main percent posix args first second)).
Proof.
  unfold check_main. destruct (getopt_arguments posix args [] (fun _ => eq_refl)) as (ls & fs & A & ->). cbn [app].
  destruct (check_getopt_wished ls (mkCheck false false true false)) as (ls1 & ls2 & E & F & R). destruct ls2 as [|c ls2].
  - destruct R as (o & -> & WM). rewrite tbind_done. rewrite app_nil_r in E. subst ls1. destruct fs as [|f fs].
    + cbn [tbind say done quietly fst snd]. eapply cs_no_file; eauto.
    + destruct (check_file_checked percent o f (first f) (second f)) as (rs & C1 & C2). eapply cs_file; eauto.
      unfold wished_more in WM. cbn [k_builtin k_dump k_hash k_verbose] in WM. unfold wished. intuition congruence.
  - destruct R as [(-> & ->)|(N1 & N2 & ->)]; cbn [tbind done quietly fst snd app]; subst ls.
    + eapply cs_help; eauto.
    + eapply cs_unknown; eauto.
Qed.

(** ** The check and the loader *)

Lemma inside_any locale s j d : means [] true s j d -> means locale true s j d.
Proof. rewrite !means_iff. auto. Qed.

Lemma outside_any locale s j d : ~ begins_block s -> means [] false s j d -> means locale false s j d.
Proof.
  rewrite !means_iff. intros NB. unfold meaning. destruct (is_hash s); [auto|]. destruct (word_at s) as [[w r]|] eqn:W; [|auto].
  destruct (strncaseeq 5 w (bs "start")) eqn:S; [|auto]. exfalso. apply NB. exists w, r. split; [now apply headed_iff|now apply start_iff].
Qed.

Lemma no_language_applies s w c r lang : headed s w (c :: r) -> text_at w (c :: r) lang -> ~ begins_with lang [].
Proof.
  intros H T B. assert (NE : lang <> []).
  { destruct H as (a & b & _ & _ & [W _] & _). inversion T; subst; auto. discriminate. }
  destruct lang as [|x l]; [easy|]. exact (begins_with_short _ _ B).
Qed.

Lemma review_means locale i last size ps rs res : review i last size ps rs res ->
  locale = [] \/ (forall l, ~ In (Skipped l) rs) ->
  exists j ds, file_means locale i ps j ds /\
    match res with
    | Some ds' => ds' = ds /\ ~ In 0%N (map fst (entries ds)) /\ length (entries ds) <= size
    | None => In 0%N (map fst (entries ds)) \/ size < length (entries ds)
    end.
Proof.
  intros R. induction R as [i last size|last size p s w c r lang ps rs res V H S T R IH|last size p s w ps rs res V H S R IH
    |last size p s code text ps rs res V M K R IH|last size p s code text ps V M K|i last size p s j d ps rs res V M NE NB R IH]; intros Q.
  - exists i, []. split; [constructor|]. splits; cbn; auto. lia.
  - destruct Q as [->|Q]; [|exfalso; apply (Q lang); now left]. destruct (IH (or_introl eq_refl)) as (j & ds & F & X).
    exists j, (Nothing :: ds). split.
    + econstructor; eauto. eapply means_start_no; eauto. eapply no_language_applies; eauto.
    + destruct res as [ds'|]; cbn [option_map]; [destruct X as (-> & X); auto|exact X].
  - destruct (IH Q) as (j & ds & F & X). exists j, (Nothing :: ds). split.
    + econstructor; eauto. eapply means_start; eauto.
    + destruct res as [ds'|]; cbn [option_map]; [destruct X as (-> & X); auto|exact X].
  - destruct IH as (j & ds & F & X).
    { destruct Q as [Q|Q]; [now left|right]. intros l I. apply (Q l). apply in_or_app. now right. }
    exists j, (Entry code text :: ds). split; [econstructor; eauto using inside_any|].
    destruct res as [ds'|]; cbn [option_map entries flat_map app map fst length In]; fold (entries ds).
    + destruct X as (-> & X1 & X2). splits; [reflexivity|intuition|lia].
    + destruct X as [X|X]; [auto|right; lia].
  - destruct (file_means_total locale ps true) as (j & ds & F). exists j, (Entry code text :: ds). split.
    + econstructor; eauto using inside_any.
    + cbn [entries flat_map app map fst length In]. destruct K as [->| ->]; [left; now left|right; lia].
  - destruct (IH Q) as (k & ds & F & X). exists k, (d :: ds). split.
    + econstructor; eauto. destruct i; [now apply inside_any|]. apply outside_any; auto.
    + assert (E : entries (d :: ds) = entries ds).
      { destruct d as [code text|x|]; [exfalso; now apply (NE code text)|reflexivity|reflexivity]. }
      destruct res as [ds'|]; cbn [option_map]; rewrite E; [destruct X as (-> & X); auto|exact X].
Qed.

Lemma effects_tallied size hash ow ds : forall acc t, tallied size hash ow acc t -> ~ In 0%N (map fst (entries ds)) ->
  length acc + length (entries ds) <= size ->
  exists t', effects ds t = Some t' /\ tallied size hash ow (acc ++ entries ds) t' /\ t_default t' = default_of (t_default t) ds.
Proof.
  induction ds as [|d ds IH]; intros acc t T Z L; cbn [effects].
  - exists t. rewrite app_nil_r. auto.
  - destruct d as [code text|x|]; cbn [effect].
    + cbn [entries flat_map app map fst length In] in *. fold (entries ds) in *.
      destruct (tallied_put _ _ _ _ _ code text T) as (t' & o & -> & T' & D' & _).
      { intros ->. auto. }
      { lia. }
      destruct (IH (acc ++ [(code, text)]) t' T') as (t2 & E & T2 & D2).
      { auto. }
      { rewrite app_length. cbn. lia. }
      exists t2. rewrite <- app_assoc in T2. cbn [app default_of] in *. rewrite D2, D'. auto.
    + destruct (IH acc (set_default t x) (tallied_default _ _ _ _ _ x T) Z L) as (t2 & E & T2 & D2). eauto.
    + destruct (IH acc t T Z L) as (t2 & E & T2 & D2). eauto.
Qed.

Lemma loaded_tallied locale contents ds : file_says locale contents ds -> ~ In 0%N (map fst (entries ds)) -> length (entries ds) <= room contents ->
  exists t, parse_table locale contents = Ok (Some t) /\ tallied (room contents) true 0 (entries ds) t /\ t_default t = default_of None ds.
Proof.
  intros S Z L. rewrite (parse_says _ _ _ S).
  assert (T : tallied (room contents) true 0 [] (table_init (Z.of_nat (table_capacity (length contents))))).
  { rewrite <- table_capacity_room. exact (set_hash_tallied (Z.of_nat (table_capacity (length contents))) true). }
  destruct (effects_tallied _ _ _ ds [] _ T Z L) as (t & -> & T' & D). exists t. auto.
Qed.

(** What is said of a file that can be read, and what becomes of it when it is loaded. *)
Theorem first_pass_loader contents rs res locale : first_pass (Readable contents) rs res ->
  locale = [] \/ (forall l, ~ In (Skipped l) rs) ->
  match res with
  | None => parse_table locale contents = Ok None
  | Some (ds, size) => file_says locale contents ds /\ size = room contents /\
      exists t, parse_table locale contents = Ok (Some t) /\ (forall k, table_get t k = last_for k (entries ds)) /\
        t_maxdata t = longest (map snd (entries ds)) /\ t_default t = default_of None ds
  end.
Proof.
  intros F Q. inversion F as [| |c ps rs' P R|c ps rs' ds P R]; subst.
  - destruct (review_means locale _ _ _ _ _ _ R Q) as (j & ds & FM & X).
    apply (parse_any locale contents ds); [|exact X]. now exists ps, j.
  - assert (Q' : locale = [] \/ (forall l, ~ In (Skipped l) rs')).
    { destruct Q as [Q|Q]; [now left|right]. intros l I. apply (Q l). apply in_or_app. now left. }
    destruct (review_means locale _ _ _ _ _ _ R Q') as (j & ds' & FM & -> & Z & L).
    assert (FS : file_says locale contents ds') by (now exists ps, j). splits; auto.
    destruct (loaded_tallied locale contents ds' FS Z L) as (t & E & T & D). exists t.
    splits; auto; [apply (ta_get _ _ _ _ _ T)|apply (ta_longest _ _ _ _ _ T)].
Qed.

Lemma default_in_defaults ds : forall d x, default_of d ds = Some x -> d = Some x \/ In x (defaults ds).
Proof.
  induction ds as [|e ds IH]; intros d x H; cbn [default_of] in H; [now left|].
  destruct e as [code text|y|]; cbn [defaults flat_map].
  - destruct (IH d x H) as [E|E]; auto.
  - destruct (IH y x H) as [E|E]; right; [subst y; now left|]. apply in_or_app. now right.
  - destruct (IH d x H) as [E|E]; auto.
Qed.

Lemma longest_in x l : In x l -> length x <= longest l.
Proof. induction l as [|y l IH]; [easy|]. intros [->|I]; cbn [longest]; [lia|]. specialize (IH I). lia. Qed.

Theorem no_warning_roomy contents rs ds size locale : first_pass (Readable contents) rs (Some (ds, size)) ->
  locale = [] \/ (forall l, ~ In (Skipped l) rs) -> (forall a b, ~ In (Lengths_differ a b) rs) ->
  exists t, parse_table locale contents = Ok (Some t) /\ roomy t.
Proof.
  intros F Q N. destruct (first_pass_loader _ _ _ locale F Q) as (_ & _ & t & E & _ & M & D). exists t. split; [exact E|].
  assert (W : lengths ds = []).
  { inversion F as [| | |c ps rs' ds' P R]; subst. destruct (lengths ds) as [|x l] eqn:X; [reflexivity|]. exfalso.
    unfold lengths in X. cbv zeta in X. destruct (_ =? _); [discriminate|]. injection X as <- _. eapply N. apply in_or_app. right. now left. }
  unfold lengths in W. cbv zeta in W. destruct (Nat.eqb_spec (longest (map snd (entries ds))) (Nat.max 1 (Nat.max (longest (map snd (entries ds))) (longest (defaults ds))))) as [X|X]; [|discriminate].
  unfold roomy. rewrite M, D. split; [lia|].
  intros x Hx. destruct (default_in_defaults _ _ _ Hx) as [Y|Y]; [discriminate|]. apply longest_in in Y. lia.
Qed.

(** ** The second pass over the same file *)

Lemma recheck_means lookup i ps rs res : recheck lookup i ps rs res ->
  exists j ds, file_means [] i ps j ds /\
    match res with
    | Some ks => ks = map fst (entries ds) /\ forall k d, In (k, d) (entries ds) -> lookup k = Some d
    | None => exists k d, In (k, d) (entries ds) /\ lookup k <> Some d
    end.
Proof.
  intros R. induction R as [i|p s w c r lang ps rs res V H S T R IH|p s code text ps rs res V M K R IH|p s code text ps V M K
    |i p s j d ps rs res V M NE NB R IH].
  - exists i, []. split; [constructor|]. cbn. split; [reflexivity|easy].
  - destruct IH as (j & ds & F & X). exists j, (Nothing :: ds). split; [|destruct res; exact X].
    econstructor; eauto. eapply means_start_no; eauto. eapply no_language_applies; eauto.
  - destruct IH as (j & ds & F & X). exists j, (Entry code text :: ds). split; [econstructor; eauto|].
    destruct res as [n|]; cbn [option_map entries flat_map app length In]; fold (entries ds).
    + destruct X as (-> & X). split; [reflexivity|]. intros k d [I|I]; [injection I as <- <-; exact K|auto].
    + destruct X as (k & d & I & X). exists k, d. auto.
  - destruct (file_means_total [] ps true) as (j & ds & F). exists j, (Entry code text :: ds). split; [econstructor; eauto|].
    exists code, text. split; [now left|exact K].
  - destruct IH as (k & ds & F & X). exists k, (d :: ds). split; [econstructor; eauto|].
    assert (E : entries (d :: ds) = entries ds).
    { destruct d as [code text|x|]; [exfalso; now apply (NE code text)|reflexivity|reflexivity]. }
    destruct res as [n|]; rewrite E; exact X.
Qed.

Theorem recheck_same contents rs ds size ps rs' res :
  first_pass (Readable contents) rs (Some (ds, size)) -> pieces contents ps ->
  recheck (fun k => last_for k (entries ds)) false ps rs' res ->
  (res = None <-> exists k d d', In (k, d) (entries ds) /\ In (k, d') (entries ds) /\ d <> d') /\
  (forall ks, res = Some ks -> ks = map fst (entries ds)).
Proof.
  intros F P R. destruct (first_pass_loader _ _ _ [] F (or_introl eq_refl)) as (S & _).
  destruct (recheck_means _ _ _ _ _ R) as (j & ds' & FM & X). assert (S' : file_says [] contents ds') by (now exists ps, j).
  destruct (file_says_one [] contents) as (ds0 & _ & U). rewrite (U _ S), (U _ S') in *. clear U ds' ds FM F R S S' P.
  assert (LI : forall k d (h : list (N * str)), last_for k h = Some d -> In (k, d) h).
  { intros k d h. induction h as [|[a b] h IH]; intros E; [discriminate|]. cbn [last_for] in E. destruct (last_for k h) as [x|].
    - injection E as ->. right. auto.
    - destruct (N.eqb_spec k a); [|discriminate]. injection E as ->. subst. now left. }
  destruct res as [n|].
  - destruct X as (-> & X). split; [|now intros n [= <-]]. split; [discriminate|].
    intros (k & d & d' & I & I' & NE). exfalso. apply X in I, I'. rewrite I in I'. injection I' as E. auto.
  - split; [|discriminate]. split; [intros _|reflexivity]. destruct X as (k & d & I & X).
    destruct (last_for k (entries ds0)) as [d'|] eqn:E.
    + exists k, d, d'. splits; auto. intros ->. now apply X.
    + exfalso. apply (in_map fst) in I. cbn [fst] in I. apply last_for_some in I. auto.
Qed.

(** ** How it ends *)

Theorem check_ends percent o name first second :
  (forall status, snd (check_file percent o name first second) = Ok status -> status = 0%N) /\
  (forall status, snd (check_file percent o name first second) <> Exit status) /\
  (forall why, snd (check_file percent o name first second) = UB why <->
     why = NullDeref /\ k_builtin o = true /\ second <> Absent /\
     (forall contents, first = Readable contents -> parse_table [] contents = Ok None)).
Proof.
  destruct (check_file_checked percent o name first second) as (rs & C & _). set (r := snd _) in *. clearbody r.
  assert (SOME : forall rs ds size, first_pass first rs (Some (ds, size)) ->
    (forall contents, first = Readable contents -> parse_table [] contents = Ok None) -> False).
  { intros rs0 ds size F H. inversion F; subst. specialize (H contents eq_refl).
    destruct (first_pass_loader _ _ _ [] F (or_introl eq_refl)) as (_ & _ & t & E & _). congruence. }
  inversion C; subst r; splits; intros; try discriminate; try (injection H; congruence).
  all: try (match goal with H : Ok _ = Ok _ |- _ => now injection H as <- end).
  all: split; [intros E|intros (E1 & E2 & E3 & E4)]; try discriminate; try congruence; try (exfalso; eapply SOME; eauto; fail).
  - injection E as <-. splits; auto. intros contents ->. exact (first_pass_loader _ _ _ [] H0 (or_introl eq_refl)).
  - destruct res as [ds size]. exfalso. eapply SOME; eauto.
Qed.

(** ** There is one review, one second look and one layout *)

Lemma headed_one s w r w' r' : headed s w r -> headed s w' r' -> w' = w /\ r' = r.
Proof. rewrite !headed_iff. intros A B. rewrite A in B. now injection B as <- <-. Qed.

Lemma language_one s w c r lang lang' : headed s w (c :: r) -> text_at w (c :: r) lang -> text_at w (c :: r) lang' -> lang' = lang.
Proof.
  intros H A B. apply headed_iff in H. pose proof (word_at_stops s w (c :: r) H) as S. apply text_at_iff in A, B; auto. congruence.
Qed.

Lemma visible_one p s s' : visible p s -> visible p s' -> s' = s.
Proof. rewrite !visible_iff. congruence. Qed.

Lemma means_one locale i s j d j' d' : means locale i s j d -> means locale i s j' d' -> j' = j /\ d' = d.
Proof. rewrite !means_iff. intros A B. rewrite A in B. now injection B as <- <-. Qed.

Ltac same_line :=
  repeat match goal with
  | A : visible ?p ?s, B : visible ?p ?s' |- _ => assert_fails (constr_eq s s'); pose proof (visible_one _ _ _ A B); subst s'
  | A : headed ?s ?w ?r, B : headed ?s ?w' ?r' |- _ =>
    assert_fails (constr_eq A B); destruct (headed_one _ _ _ _ _ A B); clear B; try discriminate; subst
  | A : means ?l ?i ?s ?j ?d, B : means ?l ?i ?s ?j' ?d' |- _ =>
    assert_fails (constr_eq A B); destruct (means_one _ _ _ _ _ _ _ A B) as [? X]; clear B; try discriminate; try injection X as ? ?; subst
  end.

Theorem review_one i last size ps rs res : review i last size ps rs res ->
  forall rs' res', review i last size ps rs' res' -> rs' = rs /\ res' = res.
Proof.
  intros R. induction R as [i last size|last size p s w c r lang ps rs res V H S T R IH|last size p s w ps rs res V H S R IH
    |last size p s code text ps rs res V M K R IH|last size p s code text ps V M K|i last size p s j d ps rs res V M NE NB R IH];
    intros rs' res' R'.
  - now inversion R'.
  - inversion R' as [|? ? ? s' w' c' r' lang' ? rs2 res2 V' H' S' T' R2|? ? ? s' w' ? rs2 res2 V' H' S' R2| | |? ? ? ? s' j' d' ? rs2 res2 V' M' NE' NB' R2]; subst; same_line.
    + injection H1 as -> ->. rewrite (language_one _ _ _ _ _ _ H T T'). destruct (IH _ _ R2) as [-> ->]. auto.
    + exfalso. apply NB'; [reflexivity|]. now exists w, (c :: r).
  - inversion R' as [|? ? ? s' w' c' r' lang' ? rs2 res2 V' H' S' T' R2|? ? ? s' w' ? rs2 res2 V' H' S' R2| | |? ? ? ? s' j' d' ? rs2 res2 V' M' NE' NB' R2]; subst; same_line.
    + destruct (IH _ _ R2) as [-> ->]. auto.
    + exfalso. apply NB'; [reflexivity|]. now exists w, [].
  - inversion R' as [| | |? ? ? s' code' text' ? rs2 res2 V' M' K' R2|? ? ? s' code' text' ? V' M' K'|? ? ? ? s' j' d' ? rs2 res2 V' M' NE' NB' R2]; subst; same_line.
    + destruct (IH _ _ R2) as [-> ->]. auto.
    + exfalso. destruct K' as [K'|K']; [auto|discriminate].
    + exfalso. now apply (NE' code text).
  - inversion R' as [| | |? ? ? s' code' text' ? rs2 res2 V' M' K' R2|? ? ? s' code' text' ? V' M' K'|? ? ? ? s' j' d' ? rs2 res2 V' M' NE' NB' R2]; subst; same_line.
    + exfalso. destruct K as [K|K]; [auto|discriminate].
    + auto.
    + exfalso. now apply (NE' code text).
  - inversion R' as [|? ? ? s' w' c' r' lang' ? rs2 res2 V' H' S' T' R2|? ? ? s' w' ? rs2 res2 V' H' S' R2|? ? ? s' code' text' ? rs2 res2 V' M' K' R2|? ? ? s' code' text' ? V' M' K'|? ? ? ? s' j' d' ? rs2 res2 V' M' NE' NB' R2]; subst; same_line.
    + exfalso. apply NB; [reflexivity|]. now exists w', (c' :: r').
    + exfalso. apply NB; [reflexivity|]. now exists w', [].
    + exfalso. now apply (NE code' text').
    + exfalso. now apply (NE code' text').
    + destruct (IH _ _ R2) as [-> ->]. auto.
Qed.
