(** * Proofs about the life of a table in memory *)

From Coq Require Import Permutation.
From Verif Require Import Base BaseFacts Stdio Table TableSpec TableProofs Prog Warnings Mem MemSpec MemFacts Words WordsSpec WordsFacts CTable CTableProofs CTableProofs2 TablesSpec.

Local Open Scope nat_scope.

Section life.

Context {al : allocator}.

Lemma reset_in_memory s p t c own : table_at s p t c own ->
  exists s', c_table_reset p s = done (tt, s') /\ table_at s' p t fresh_counters own /\ s_heap s' = s_heap s /\ same_but [p_block p] s s'.
Proof.
  intros (rp & ds & df & CP & CR & F & D & Eo & ND & Ra).
  assert (Dist : p_block rp <> p_block p).
  { rewrite Eo in ND. apply NoDup_cons_iff in ND as (X & _). intros E. apply X. rewrite E. now left. }
  unfold c_table_reset.
  step (assign_ok s p _ 8 (Int 0) CP ltac:(cbn; lia) : assign p T_seeks _ s = _).
  assert (C1 := assigned_content s p _ 8 (Int 0) (Num 0) CP ltac:(left; reflexivity)).
  assert (R1 := assigned_other s p 8 (Int 0) rp _ Dist CR). set (s1 := assigned s p 8 (Int 0)) in *.
  step (assign_ok s1 p _ 6 (Int 0) C1 ltac:(cbn; lia) : assign p T_misses _ s1 = _).
  assert (C2 := assigned_content s1 p _ 6 (Int 0) (Num 0) C1 ltac:(left; reflexivity)).
  assert (R2 := assigned_other s1 p 6 (Int 0) rp _ Dist R1). set (s2 := assigned s1 p 6 (Int 0)) in *.
  rewrite (assign_ok s2 p _ 5 (Int 0) C2 ltac:(cbn; lia) : assign p T_hits _ s2 = _).
  assert (C3 := assigned_content s2 p _ 5 (Int 0) (Num 0) C2 ltac:(left; reflexivity)).
  assert (R3 := assigned_other s2 p 5 (Int 0) rp _ Dist R2). set (s3 := assigned s2 p 5 (Int 0)) in *.
  eexists. splits; [reflexivity| |reflexivity|].
  - exists rp, ds, df. splits; auto.
  - intros b Nb. assert (b <> p_block p) by (intros ->; apply Nb; now left).
    transitivity (s_words s2 b); [now apply update_other|]. transitivity (s_words s1 b); now apply update_other.
Qed.

(** What holds of a table in use, with [k] uses behind it. *)
Definition in_use (s0 s : store_t) (p : ptr) (t : table) (k : Z) : Prop :=
  exists c own more, table_at s p t c own /\ wf t /\ t_builtin t = false /\ s_heap s = s_heap s0 ++ more /\
    (forall b, In b own -> length (s_heap s0) <= b) /\ (forall b, b < length (s_heap s0) -> s_words s b = s_words s0 b) /\
    live more = length own + t_overwrites t /\
    (n_hits c <= k /\ n_misses c <= k /\ n_seeks c <= k /\ Z.of_nat (t_overwrites t) <= k)%Z.

Lemma counted_le t key c k : (n_hits c <= k /\ n_misses c <= k /\ n_seeks c <= k)%Z ->
  (n_hits (counted t key c) <= k + 1 /\ n_misses (counted t key c) <= k + 1 /\ n_seeks (counted t key c) <= k + 1)%Z.
Proof.
  intros (A & B & C). unfold counted. destruct (key =? 0)%N; [lia|]. destruct (_ && _)%bool; cbn; [lia|]. destruct (existsb _ _); cbn; lia.
Qed.

Lemma put_builtin t k d : t_builtin (fst (table_put t k d)) = t_builtin t.
Proof.
  unfold table_put. destruct (k =? 0)%N; [reflexivity|]. destruct (_ =? _)%nat; [reflexivity|]. destruct (put_offset t k); reflexivity.
Qed.

Lemma put_rows_builtin rows : forall t, t_builtin (put_rows t rows) = t_builtin t.
Proof.
  induction rows as [|r rows IH]; intros t; [reflexivity|]. cbn [put_rows]. rewrite IH. destruct (r_data r); [|reflexivity]. destruct (0 <? r_key r)%N; [apply put_builtin|reflexivity].
Qed.

Lemma put_overwrites t k d : t_overwrites (fst (table_put t k d)) <= S (t_overwrites t).
Proof.
  unfold table_put. destruct (k =? 0)%N; cbn; [lia|]. destruct (t_length t =? t_used t); cbn; [lia|].
  destruct (put_offset t k); cbn; [|lia]. destruct (_ =? k)%N; lia.
Qed.

Lemma put_refused t k d : snd (table_put t k d) = None -> fst (table_put t k d) = t.
Proof. apply table_refused_unchanged. Qed.

Lemma nth_firstn_lt {A} n : forall (l : list A) i, i < n -> nth_error (firstn n l) i = nth_error l i.
Proof. induction n as [|n IH]; intros [|x l] [|i] L; try lia; cbn; auto. apply IH. lia. Qed.

Lemma without_new own h more h' : (forall b, In b own -> length h <= b) -> without own (h ++ more) h' -> exists more', h' = h ++ more'.
Proof.
  intros Nw (L & E). exists (skipn (length h) h'). rewrite <- (firstn_skipn (length h) h') at 1. f_equal.
  apply nth_error_ext. intros i. destruct (Nat.lt_ge_cases i (length h)) as [Lt|Ge].
  - rewrite nth_firstn_lt by exact Lt. rewrite E. destruct (in_dec Nat.eq_dec i own) as [I|_]; [apply Nw in I; lia|]. now apply nth_error_app1.
  - rewrite (proj2 (nth_error_None h i)) by lia. apply nth_error_None. rewrite firstn_length. lia.
Qed.

Lemma answer_ok s q x : string_in (s_heap s) q x -> c_answer q s = done (x, s).
Proof.
  destruct q as [q|], x as [x|]; cbn [string_in]; try easy. intros (_ & C). unfold c_answer.
  rewrite (wbind_done _ _ _ _ _ (bytes_done _ _ _ _ (read_ok _ _ _ C))). destruct s. reflexivity.
Qed.

Theorem uses_in_memory (Lal : limited al) s0 text l : forall s p t k,
  Forall (usable (s_heap s0) text) l -> in_use s0 s p t k -> (k + Z.of_nat (length l) <= int_max)%Z ->
  ends (fun _ _ => True)
       (fun r s' => snd r = snd (uses text t l) /\ in_use s0 s' (fst r) (fst (uses text t l)) (k + Z.of_nat (length l)))
       (c_uses p l s).
Proof.
  induction l as [|u l IH]; intros s p t k Us Iu Le; cbn [c_uses uses].
  { constructor. split; [reflexivity|]. cbn. now rewrite Z.add_0_r. }
  apply Forall_inv_tail in Us as Us'. apply Forall_inv in Us.
  assert (E : (k + Z.of_nat (length (u :: l)) = (k + 1) + Z.of_nat (length l))%Z) by (cbn [length]; lia). rewrite E in *.
  destruct Iu as (c & own & more & T & W & Nb & Hs & Onew & Ws & Lv & B1 & B2 & B3 & B4).
  assert (Old : forall q x, cstr_at (s_heap s0) q x -> cstr_at (s_heap s) q x) by (intros q x C; rewrite Hs; now apply cstr_old).
  destruct u as [key d|key|n hashed|]; cbn [usable] in Us.
  - destruct Us as (Kk & Cd & Ld). eapply ends_bind.
    { eapply ends_weaken; [apply (put_in_memory s p t c own key d (text d) T (Old _ _ Cd) Ld Kk); lia|easy|intros a s' HQ; exact HQ]. }
    intros off s' (own' & _ & T' & Sb & M). apply IH; auto. destruct (snd (table_put t key (text d))) as [i|] eqn:Es.
    + destruct M as (H' & Inc & Ln). pose proof (put_overwrites t key (text d)).
      exists c, own', (more ++ [string_block (text d)]). splits; auto; try lia.
      * now apply wf_put.
      * now rewrite put_builtin.
      * now rewrite H', Hs, app_assoc.
      * intros b Ib. apply Inc in Ib as [<-|Ib]; [rewrite Hs, app_length; lia|auto].
      * intros b Lb. rewrite Sb; [auto|]. intros J. apply Onew in J. lia.
      * rewrite live_app, live_one. lia.
    + destruct M as (-> & ->). rewrite (put_refused _ _ _ Es). exists c, own, more. splits; auto; lia.
  - destruct (get_in_memory s p t c own key T ltac:(unfold sound; lia)) as (q & s' & G & St & _ & T' & H' & Sb).
    step G. step (answer_ok s' q _ St). eapply ends_bind.
    { apply (IH s' p t (k + 1)%Z Us'); [|lia]. pose proof (counted_le t key c k ltac:(auto)).
      exists (counted t key c), own, more. splits; auto; try lia; try congruence.
      intros b Lb. rewrite Sb; [auto|]. intros [<-|[]]. destruct T as (rp & ds & df & _ & _ & _ & _ & Eo & _). specialize (Onew (p_block p)). rewrite Eo in Onew. specialize (Onew (or_introl eq_refl)). lia. }
    intros (p' & answers) s2 (Ea & I2). cbn in Ea, I2. subst answers. constructor. split; [reflexivity|exact I2].
  - eapply ends_bind.
    { eapply ends_weaken; [apply (resize_in_memory s p t c own n hashed Lal T W Us); lia|easy|intros a s' HQ; exact HQ]. }
    intros q s' (-> & own' & more' & Tp & Tq & H' & W' & Onew' & Lv' & Ou & _).
    destruct (free_in_memory s' p t c own Tp Nb) as (h2 & Fr & Wo & Lf). step Fr.
    apply IH; auto.
    assert (Below : forall b, In b own -> b < length (s_heap s)) by (intros b Ib; exact (own_old _ _ _ _ _ _ T Ib)).
    destruct (without_new own (s_heap s0) (more ++ more') h2 Onew) as (more2 & E2); [now rewrite app_assoc, <- Hs, <- H'|].
    exists fresh_counters, own', more2. splits; auto.
    + apply (table_at_same s'); [|exact Tq]. intros b Ib. split; [|reflexivity]. cbn [s_heap].
      rewrite (proj2 Wo b). destruct (in_dec Nat.eq_dec b own) as [J|]; [|reflexivity]. apply Below in J. apply Onew' in Ib. lia.
    + now apply wf_resize.
    + unfold table_resize. now rewrite put_rows_builtin.
    + intros b Ib. apply Onew' in Ib. rewrite Hs, app_length in Ib. lia.
    + intros b Lb. cbn [s_words]. rewrite W'; [auto|]. rewrite Hs, app_length. lia.
    + rewrite H', Hs, E2, !live_app in Lf. lia.
    + cbn. lia.
    + cbn. lia.
    + cbn. lia.
    + lia.
  - destruct (reset_in_memory s p t c own T) as (s' & Rs & T' & H' & Sb). step Rs. apply IH; auto.
    exists fresh_counters, own, more. splits; auto; try congruence; try (cbn; lia).
    intros b Lb. rewrite Sb; [auto|]. intros [<-|[]]. destruct T as (rp & ds & df & _ & _ & _ & _ & Eo & _). specialize (Onew (p_block p)). rewrite Eo in Onew. specialize (Onew (or_introl eq_refl)). lia.
Qed.

Theorem life_in_memory (Lal : limited al) s text n l :
  Forall (usable (s_heap s) text) l -> (n <= int_max)%Z -> (Z.of_nat (length l) <= int_max)%Z ->
  ends (fun _ _ => True)
       (fun answers s' => answers = snd (uses text (table_init n) l) /\
          (forall b, b < length (s_heap s) -> s_words s' b = s_words s b) /\
          exists more, s_heap s' = s_heap s ++ more /\ live more = t_overwrites (fst (uses text (table_init n) l)))
       (c_life n l s).
Proof.
  intros Us Ln Ll. unfold c_life. eapply ends_bind.
  { eapply ends_weaken; [apply (init_in_memory s n Ln)|easy|intros a s' HQ; exact HQ]. }
  intros p s1 (-> & T & H1 & Sb & _). eapply ends_bind.
  { apply (uses_in_memory Lal s text l s1 _ (table_init n) 0 Us); [|lia].
    eexists _, _, _. splits; [exact T|apply wf_init|reflexivity|exact H1| | | | | | |]; try (cbn; lia).
    intros b Lb. apply Sb. intros [<-|[<-|[]]]; lia. }
  intros (p & answers) s2 (Ea & c & own & more & T2 & W2 & Nb2 & H2 & On2 & Ws2 & Lv & _). cbn [fst snd] in *. subst answers.
  destruct (free_in_memory s2 p _ c own T2 Nb2) as (h3 & Fr & Wo & Lf). step Fr. constructor. splits; auto.
  rewrite H2 in Wo. destruct (without_new own (s_heap s) more h3 On2 Wo) as (more3 & E3). exists more3. split; [exact E3|].
  rewrite H2, E3, !live_app in Lf. lia.
Qed.

(** ** What is lost *)

Lemma uses_send text l : forall t, Forall (fun u => ~ resizes u) l -> fst (uses text t l) = send t (stores text l).
Proof.
  induction l as [|u l IH]; intros t Nr; [reflexivity|]. apply Forall_inv in Nr as Nu. apply Forall_inv_tail in Nr.
  destruct u as [k d|k|n b|]; cbn [uses stores flat_map app].
  - now apply IH.
  - now apply IH.
  - destruct Nu. unfold resizes. eauto.
  - now apply IH.
Qed.

Lemma send_app l1 : forall t l2, send t (l1 ++ l2) = send (send t l1) l2.
Proof. induction l1 as [|(k, d) l1 IH]; intros t l2; cbn; auto. Qed.

Lemma nodup_last (l : list N) k : length (nodup N.eq_dec (l ++ [k])) = length (nodup N.eq_dec l) + (if in_dec N.eq_dec k l then 0 else 1).
Proof.
  destruct (in_dec N.eq_dec k l) as [I|Nn].
  - rewrite Nat.add_0_r. apply Permutation_length, NoDup_Permutation; try apply NoDup_nodup.
    intros x. rewrite !nodup_In, in_app_iff. cbn. split; [|now left]. intros [A|[<-|[]]]; auto.
  - replace (length (nodup N.eq_dec l) + 1) with (length (k :: nodup N.eq_dec l)) by (cbn; lia).
    apply Permutation_length, NoDup_Permutation; [apply NoDup_nodup| |].
    + constructor; [now rewrite nodup_In|apply NoDup_nodup].
    + intros x. rewrite nodup_In, in_app_iff. cbn [In]. rewrite nodup_In. tauto.
Qed.

Lemma last_for_in k l : last_for k l = None <-> ~ In k (map fst l).
Proof.
  induction l as [|(k', d) l IH]; cbn; [tauto|]. destruct (last_for k l) eqn:E.
  - split; [discriminate|]. intros Nn. destruct Nn. right. destruct (in_dec N.eq_dec k (map fst l)) as [I|Nn]; [exact I|]. apply IH in Nn. discriminate.
  - destruct (N.eqb_spec k k') as [->|Ne]; [split; [discriminate|intros []; now left]|]. split; [|reflexivity]. intros _ [->|I]; [easy|]. now apply IH in I.
Qed.

Lemma accepted_last n l k d : accepted n (l ++ [(k, d)]) = if (negb (k =? 0)%N && (length (accepted n l) <? n))%bool then accepted n l ++ [(k, d)] else accepted n l.
Proof.
  unfold accepted. rewrite filter_app. cbn [filter fst]. destruct (N.eqb_spec k 0) as [->|Kz]; cbn [negb andb].
  - now rewrite app_nil_r.
  - set (m := filter _ l). rewrite firstn_length. rewrite firstn_app. destruct (Nat.ltb_spec (Nat.min n (length m)) n) as [Lt|Ge].
    + rewrite (firstn_all2 m) by lia. destruct (n - length m) as [|j] eqn:E; [lia|]. cbn [firstn]. now rewrite firstn_nil.
    + replace (n - length m) with 0 by lia. now rewrite app_nil_r.
Qed.

Lemma init_new n : table_init n = new_table n true.
Proof. reflexivity. Qed.

Lemma stores_used n l : wf (send (table_init n) l) /\ t_used (send (table_init n) l) = length (accepted (new_size n) l) /\ length (t_rows (send (table_init n) l)) = new_size n.
Proof.
  induction l as [|(k, d) l IH] using rev_ind.
  { splits; [apply wf_init|now destruct (new_size n)|]. rewrite table_init_eq. apply repeat_length. }
  destruct IH as (W & U & L). rewrite send_app. cbn [send]. rewrite accepted_last.
  destruct (N.eqb_spec k 0) as [->|Kz]; cbn [negb andb]; [auto|].
  destruct (Nat.ltb_spec (length (accepted (new_size n) l)) (new_size n)) as [Lt|Ge].
  - destruct (table_put_accept _ k d W Kz ltac:(lia)) as (off & E & _). pose proof (wf_put _ k d W) as W'. rewrite E in *. cbn [fst t_used t_rows] in *.
    splits; auto; [rewrite app_length; cbn; lia|now rewrite set_row_length].
  - rewrite table_put_refuse; [auto|]. right. pose proof (wf_used _ W). lia.
Qed.

Lemma replaced_sum n l : t_overwrites (send (table_init n) l) + length (nodup N.eq_dec (map fst (accepted (new_size n) l))) = length (accepted (new_size n) l).
Proof.
  induction l as [|(k, d) l IH] using rev_ind; [now destruct (new_size n)|].
  destruct (stores_used n l) as (W & U & L). rewrite send_app. cbn [send]. rewrite accepted_last.
  destruct (N.eqb_spec k 0) as [->|Kz]; cbn [negb andb]; [exact IH|].
  destruct (Nat.ltb_spec (length (accepted (new_size n) l)) (new_size n)) as [Lt|Ge].
  - rewrite map_app, app_length. cbn [map fst length]. rewrite nodup_last.
    destruct (table_put_accept _ k d W Kz ltac:(lia)) as (off & E & Po). rewrite E. cbn [fst t_overwrites].
    destruct (put_offset_spec _ k W Kz ltac:(lia)) as (off' & Po' & Lo & Fo & Same & _). rewrite Po in Po'. injection Po' as <-.
    pose proof (table_history n true l k) as G. rewrite <- init_new in G.
    destruct (in_dec N.eq_dec k (map fst (accepted (new_size n) l))) as [I|Nn].
    + destruct (N.eqb_spec (r_key (row_at (t_rows (send (table_init n) l)) off)) k) as [_|Ne]; [lia|]. exfalso.
      assert (table_get (send (table_init n) l) k = None).
      { apply table_get_none_iff; auto. intros i Li Ei. apply Ne. rewrite <- (Same i Li Ei). exact Ei. }
      rewrite H in G. symmetry in G. now apply last_for_in in G.
    + apply last_for_in in Nn. rewrite Nn in G. rewrite table_get_none_iff in G by auto. apply G in Lo. apply N.eqb_neq in Lo as ->. lia.
  - rewrite table_put_refuse; [exact IH|]. right. pose proof (wf_used _ W). lia.
Qed.

Theorem lost_in_memory text n l : Forall (fun u => ~ resizes u) l ->
  t_overwrites (fst (uses text (table_init n) l)) = replacing (accepted (new_size n) (stores text l)).
Proof. intros Nr. rewrite uses_send by exact Nr. unfold replacing. pose proof (replaced_sum n (stores text l)). lia. Qed.

(** ** Statistics *)

Lemma incr_fails s p vs i z : content s p vs -> nth_error vs i = Some (Num z) -> (int_max <= z)%Z -> incr p i s = quietly (UB IntOverflow).
Proof.
  intros C Nn Le. unfold incr. rewrite (wbind_done _ _ _ _ _ (int_at_ok _ _ _ _ _ C Nn)). unfold int_sum.
  destruct (Z.leb_spec (z + 1) int_max); [lia|]. reflexivity.
Qed.

Lemma wbind_fails {A B} (m : wmem A) (k : A -> wmem B) s w : m s = quietly (UB w) -> wbind m k s = quietly (UB w).
Proof. intros E. unfold wbind. now rewrite E. Qed.

(** The counter that counts every lookup of [key]. *)
Definition found_at_once (t : table) (key : N) : bool := (t_hash t && (r_key (row_at (t_rows t) (table_hash (length (t_rows t)) key)) =? key)%N)%bool.
Definition every (t : table) (key : N) (c : counters) : Z := if found_at_once t key then n_hits c else n_seeks c.

Lemma get_overflows s p t c own key : table_at s p t c own -> key <> 0%N -> every t key c = int_max ->
  c_table_get (Some p) key s = quietly (UB IntOverflow).
Proof.
  intros T Kz Ev. pose proof T as (rp & ds & df & CP & CR & F & D & Eo & ND & (Pos & Le & Us & Md & Mk & K & Mx)).
  pose proof (Forall2_len _ _ _ F) as L. unfold c_table_get. apply N.eqb_neq in Kz as ->.
  step (int_at_ok _ _ _ 9 _ CP eq_refl : int_at p T_use_hash s = _). rewrite int_bool.
  assert (Sk : table_hash (length (t_rows t)) key < length (t_rows t)) by now apply table_hash_lt.
  match goal with |- context[wbind ?m] => assert (M : m s = done (if found_at_once t key then Z.of_nat (table_hash (length (t_rows t)) key) else (-1)%Z, s)) end.
  { unfold found_at_once. destruct (t_hash t); cbn [negb andb]; [|reflexivity].
    step (int_at_ok _ _ _ 0 _ CP eq_refl : int_at p T_length s = _). step (hash_ok (length (t_rows t)) key s Pos Le).
    step (rows_ok s p _ rp CP eq_refl). step (row_key_ok s rp (t_rows t) ds CR L K _ Sk).
    now destruct (r_key _ =? key)%N. }
  step M. unfold every in Ev. destruct (found_at_once t key).
  - rewrite nonneg_not_minus_one, wbind_ret, nonneg_not_minus_one.
    apply wbind_fails, (incr_fails s p _ 5 (n_hits c) CP eq_refl). lia.
  - cbn [Z.eqb Pos.eqb]. rewrite wbind_assoc.
    apply wbind_fails, (incr_fails s p _ 8 (n_seeks c) CP eq_refl). lia.
Qed.

Lemma counted_every t key c : key <> 0%N -> every t key (counted t key c) = (every t key c + 1)%Z.
Proof.
  intros Kz. unfold counted, every. apply N.eqb_neq in Kz as ->.
  change (t_hash t && (r_key (nth (N.to_nat (key mod N.of_nat (length (t_rows t)))) (t_rows t) (mkRow 0 None)) =? key)%N)%bool with (found_at_once t key).
  destruct (found_at_once t key); [reflexivity|]. destruct (existsb _ _); reflexivity.
Qed.

Lemma lookups_overflow t key : key <> 0%N -> forall n s p c own, table_at s p t c own -> (every t key c + Z.of_nat n = int_max)%Z ->
  (n_hits c <= every t key c /\ n_misses c <= every t key c /\ n_seeks c <= every t key c)%Z ->
  c_lookups p key (S n) s = quietly (UB IntOverflow).
Proof.
  intros Kz. induction n as [|n IH]; intros s p c own T Ev B.
  - cbn [c_lookups]. apply wbind_fails, (get_overflows s p t c own key T Kz). lia.
  - cbn [c_lookups]. destruct (get_in_memory s p t c own key T ltac:(unfold sound; lia)) as (q & s' & G & _ & _ & T' & _).
    step G. apply (IH s' p _ own T'); rewrite counted_every by exact Kz; [lia|]. now apply counted_le.
Qed.

Theorem statistics_overflow s p t own key : table_at s p t fresh_counters own -> key <> 0%N ->
  c_lookups p key (S (Z.to_nat int_max)) s = quietly (UB IntOverflow).
Proof.
  intros T Kz. apply (lookups_overflow t key Kz _ s p fresh_counters own T); unfold every; destruct (found_at_once t key); cbn; unfold int_max; lia.
Qed.

(** ** What cannot be read *)

Theorem freed_table s p t c own key data : table_at s p t c own -> t_builtin t = false -> key <> 0%N ->
  exists s', c_table_free (Some p) s = done (tt, s') /\
    c_table_free (Some p) s' = quietly (UB BadPointer) /\ c_table_get (Some p) key s' = quietly (UB BadPointer) /\
    c_table_put (Some p) key data s' = quietly (UB BadPointer).
Proof.
  intros T Nb Nz. destruct (free_in_memory s p t c own T Nb) as (h' & Fr & (_ & Wo) & _). eexists. split; [exact Fr|].
  assert (E : nth_error (s_heap (mkStore h' (s_words s))) (p_block p) = Some None).
  { cbn [s_heap]. rewrite Wo. destruct (in_dec Nat.eq_dec (p_block p) own) as [|Ni]; [reflexivity|]. exfalso. apply Ni.
    destruct T as (rows & ds & df & _ & _ & _ & _ & -> & _). now left. }
  splits.
  - now apply freed_int.
  - unfold c_table_get. apply N.eqb_neq in Nz. rewrite Nz. now apply freed_int.
  - unfold c_table_put. apply N.eqb_neq in Nz. rewrite Nz. now apply freed_int.
Qed.

Theorem new_members size k s p s' i : new_words size k s = done (p, s') -> i < k -> int_at p i s' = quietly (UB Uninitialised) /\ ptr_at p i s' = quietly (UB Uninitialised).
Proof.
  unfold new_words, bytes, wbind, malloc. intros E L. destruct (refusal_of (s_heap s) size); [discriminate|]. cbn in E. injection E as <- <-.
  assert (F : fetch (mkPtr (length (s_heap s)) 0) i (mkStore (s_heap s ++ [Some (repeat None (N.to_nat size))]) (update (s_words s) (length (s_heap s)) (repeat None k))) = quietly (UB Uninitialised)).
  { unfold fetch, wbind, members. cbn [s_heap p_block p_off s_words]. rewrite nth_error_app2, Nat.sub_diag by lia. cbn [nth_error]. rewrite tbind_done.
    unfold update. rewrite Nat.eqb_refl. now rewrite nth_error_repeat. }
  unfold int_at, ptr_at, wbind. unfold blank. split; rewrite F; reflexivity.
Qed.

End life.
