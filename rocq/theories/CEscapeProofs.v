(** * Proofs about escape-utf-8 in memory: the table *)

From Verif Require Import Base BaseFacts Stdio StdioFacts Table TableSpec TableProofs GenBuiltin Filter Prog File Inline Escape EscapeSpec EscapeProofs Startup
  Mem MemSpec MemFacts Words WordsSpec WordsFacts CTable CTableProofs CTableProofs2 CTableProofs3 CConfig COptions CRun CWork CLoadSpec CReviewSpec CFiltersProofs CReviewProofs CRunSpec CWorkSpec CEscape CEscapeSpec.

Local Open Scope nat_scope.

Ltac step L := rewrite (wbind_done _ _ _ _ _ L).

Lemma work_buffer h b cells text : nth_error h b = Some (Some cells) -> length cells = 16 -> length text <= 15 ->
  exists cells1 rest, c_snprintf (mkPtr b 0) (N.of_nat MAX_LENGTH) text h = done (tt, set_block h b (Some cells1)) /\ length cells1 = 16 /\ cells1 = map Some text ++ Some NUL :: rest.
Proof.
  intros Nc Lc Lt. unfold c_snprintf. change (N.to_nat (N.of_nat MAX_LENGTH) - 1) with 15. rewrite firstn_all2 by exact Lt. eexists. eexists. split.
  - rewrite (mbind_done _ _ _ _ _ (write_over (text ++ [NUL]) h b 0 cells Nc ltac:(rewrite app_length; cbn [length]; lia))). reflexivity.
  - cbn [firstn app]. split.
    + rewrite app_length, map_length, skipn_length. rewrite app_length. cbn [length]. lia.
    + rewrite map_app, <- app_assoc. cbn [map app]. reflexivity.
Qed.

Section table.

Context {al : allocator}.

(** While the table is filled: the buffer is the first block after those of [s0], then there is
    the table. *)
Definition stocked (s0 : store_t) (p : ptr) (t : table) (k room : nat) (s : store_t) : Prop :=
  exists c own cells more, table_at s p t c own /\ seldom k c /\ s_heap s = s_heap s0 ++ Some cells :: more /\ length cells = 16 /\
    (forall b, In b own -> length (s_heap s0) < b) /\ (forall b, b < length (s_heap s0) -> s_words s b = s_words s0 b) /\
    live more = length own + t_overwrites t /\ heap_size more <= room.

Definition asking (s0 : store_t) (room : nat) (h : heap) (n : N) : Prop := exists more, h = s_heap s0 ++ more /\ heap_size more + N.to_nat n <= 16 + room.

Lemma asking_more s0 room room' h n : asking s0 room h n -> room <= room' -> asking s0 room' h n.
Proof. intros (more & E & L) Le. exists more. split; [exact E|lia]. Qed.

Lemma stocked_more s0 p t k room k' room' s : stocked s0 p t k room s -> k <= k' -> room <= room' -> stocked s0 p t k' room' s.
Proof. intros (c & own & cells & more & T & (A & B & C) & X) Lk Lr. exists c, own, cells, more. unfold seldom. destruct X as (X1 & X2 & X3 & X4 & X5 & X6). splits; auto; lia. Qed.

Lemma store_text_ok s0 p t k room s i text : stocked s0 p t k room s -> nonul text -> length text <= 10 -> (0 <= i <= 0x110000)%Z -> (Z.of_nat (t_overwrites t) < int_max)%Z ->
  ends (asking s0 (room + 11)) (fun _ s' => stocked s0 p (fst (table_put t (Z.to_N i) (snprintf text))) k (room + 11) s')
    (c_store_text p (mkPtr (length (s_heap s0)) 0) i text s).
Proof.
  intros (c & own & cells & more & T & Sd & H & Lc & On & W & Lv & Sz) Nt Lt Li Ow. set (B := length (s_heap s0)).
  assert (Nc : nth_error (s_heap s) B = Some (Some cells)) by (rewrite H; unfold B; rewrite nth_error_app2, Nat.sub_diag by lia; reflexivity).
  destruct (work_buffer (s_heap s) B cells text Nc Lc ltac:(lia)) as (cells1 & rest & Sn & L1 & E1).
  unfold c_store_text. step (bytes_done _ _ _ _ Sn).
  set (s1 := mkStore (set_block (s_heap s) B (Some cells1)) (s_words s)).
  assert (H1 : s_heap s1 = s_heap s0 ++ Some cells1 :: more) by (cbn [s1 s_heap]; rewrite H; apply set_middle).
  assert (T1 : table_at s1 p t c own).
  { apply (table_at_same s); [|exact T]. intros b I. split; [|reflexivity]. apply On in I. rewrite H1, H. rewrite !nth_error_app2 by lia.
    destruct (b - length (s_heap s0)) eqn:E; [lia|reflexivity]. }
  assert (C1 : cstr_at (s_heap s1) (mkPtr B 0) text).
  { exists cells1, rest. cbn [p_block p_off]. rewrite H1. unfold B. rewrite nth_error_app2, Nat.sub_diag by lia. splits; auto. }
  assert (Eu : unsigned_of i = Z.to_N i) by (unfold unsigned_of; rewrite Z.mod_small; [reflexivity|lia]).
  rewrite Eu, snprintf_short by lia.
  eapply ends_bind.
  { eapply ends_weaken; [apply (put_in_memory s1 p t c own (Z.to_N i) (mkPtr B 0) text T1 C1); [unfold strlen; lia|lia|exact Ow]| |intros a s' HQ; exact HQ].
    intros h n (-> & ->). exists (Some cells1 :: more). split; [exact H1|]. change (Some cells1 :: more) with ([Some cells1] ++ more). rewrite size_app, size_one. unfold strlen.
    assert (length cells1 = 16) by exact L1. lia. }
  intros off s2 (own' & _ & T2 & Sb & M). constructor.
  assert (W2 : forall b, b < length (s_heap s0) -> s_words s2 b = s_words s0 b).
  { intros b Lb. rewrite Sb; [cbn [s1 s_words]; auto|]. intros I. apply On in I. lia. }
  destruct (snd (table_put t (Z.to_N i) text)) eqn:Ep.
  - destruct M as (H2 & Inc & Ln). exists c, own', cells1, (more ++ [string_block text]). splits; auto.
    + now rewrite H2, H1, <- app_assoc.
    + intros b I. apply Inc in I. destruct I as [<-|I]; [|now apply On]. rewrite H1, app_length. cbn [length]. lia.
    + rewrite live_app, live_one. lia.
    + rewrite size_app, string_block_size. lia.
  - destruct M as (-> & ->). exists c, own, cells1, more. splits; auto; try lia.
    rewrite Lv. f_equal. unfold table_put in Ep |- *. destruct (Z.to_N i =? 0)%N; [reflexivity|]. destruct (t_length t =? t_used t); [reflexivity|]. destruct (put_offset t (Z.to_N i)); [discriminate|reflexivity].
Qed.

Lemma missing_rounds s0 p hi : (hi <= 0x7F)%Z -> forall n fuel i s t k room, hi = (i + Z.of_nat n)%Z -> (0x20 <= i)%Z -> n < fuel ->
  stocked s0 p t k room s -> (Z.of_nat (t_overwrites t + n) < int_max)%Z -> (Z.of_nat (k + n) < int_max)%Z ->
  ends (asking s0 (room + 11 * n)) (fun j s' => j = hi /\ stocked s0 p (store_missing n (Z.to_N i) t) (k + n) (room + 11 * n) s')
    (wrounds fuel (fun i =>
            if (i <? hi)%Z then
              let$ found := c_table_get (Some p) (unsigned_of i) in
              let$ _ := match found with
                        | None => c_store_text p (mkPtr (length (s_heap s0)) 0) i [Nb (Z.to_N i)]
                        | Some _ => wret tt
                        end in
              wret (inl (i + 1)%Z)
            else wret (inr i)) i s).
Proof.
  intros Hh. induction n as [|n IH]; intros fuel i s t k room Eh Li Lf St Ow Lk; (destruct fuel as [|fuel]; [lia|]); cbn [wrounds store_missing].
  - replace (i <? hi)%Z with false by (symmetry; apply Z.ltb_ge; lia). rewrite wbind_ret. constructor. split; [lia|]. eapply stocked_more; [exact St|lia..].
  - replace (i <? hi)%Z with true by (symmetry; apply Z.ltb_lt; lia). rewrite wbind_assoc.
    pose proof St as (c & own & cells & more & T & (S1 & S2 & S3) & H & Lc & On & W & Lv & Sz).
    destruct (get_in_memory s p t c own (unsigned_of i) T) as (q & s1 & G & Sq & _ & T1 & H1 & Sb); [unfold sound; lia|].
    step G. rewrite wbind_assoc.
    assert (Eu : unsigned_of i = Z.to_N i) by (unfold unsigned_of; rewrite Z.mod_small; [reflexivity|lia]).
    assert (St1 : stocked s0 p t (S k) room s1).
    { pose proof (counted_le t (unsigned_of i) c (Z.of_nat k) ltac:(auto)) as (A1 & A2 & A3). exists (counted t (unsigned_of i) c), own, cells, more. unfold seldom. splits; auto; try lia; try congruence.
      intros b Lb. rewrite Sb; [auto|]. intros [<-|[]]. destruct T as (rp & ds & df & _ & _ & _ & _ & Eo & _). specialize (On (p_block p)). rewrite Eo in On. specialize (On (or_introl eq_refl)). lia. }
    replace (k + S n) with (S k + n) by lia. rewrite Eu in Sq. replace (Z.to_N i + 1)%N with (Z.to_N (i + 1)) by lia.
    destruct (table_get t (Z.to_N i)) as [d|] eqn:Eg, q as [q|]; cbn in Sq; try contradiction.
    + rewrite wbind_ret, wbind_ret. eapply ends_weaken; [apply (IH fuel (i + 1)%Z s1 t (S k) room); auto; lia| |].
      * intros h m A. eapply asking_more; [exact A|lia].
      * intros j s' (-> & S'). split; [reflexivity|]. eapply stocked_more; [exact S'|lia..].
    + eapply ends_bind.
      { eapply ends_weaken; [apply (store_text_ok s0 p t (S k) room s1 i [Nb (Z.to_N i)] St1)| |intros a s' HQ; exact HQ]; [| |lia|lia|].
        - intros [E|[]]. apply (f_equal bN) in E. rewrite bN_Nb in E; [|lia]. change (bN NUL) with 0%N in E. lia.
        - cbn. lia.
        - intros h m A. eapply asking_more; [exact A|lia]. }
      intros [] s2 St2. rewrite wbind_ret. pose proof (put_overwrites t (Z.to_N i) (snprintf [Nb (Z.to_N i)])).
      eapply ends_weaken; [eapply (IH fuel (i + 1)%Z s2 _ (S k) (room + 11)); [lia|lia|lia|exact St2|lia|lia]| |].
      * intros h m A. eapply asking_more; [exact A|lia].
      * intros j s' (-> & S'). split; [reflexivity|]. eapply stocked_more; [exact S'|lia..].
Qed.

Lemma range_rounds s0 p k text hi : (hi <= 0x110000)%Z -> forall n fuel i s t room, (forall j, (Z.to_N i <= j < Z.to_N hi)%N -> nonul (text j) /\ length (text j) <= 10) ->
  hi = (i + Z.of_nat n)%Z -> (0 <= i)%Z -> n < fuel ->
  stocked s0 p t k room s -> (Z.of_nat (t_overwrites t + n) < int_max)%Z ->
  ends (asking s0 (room + 11 * n)) (fun j s' => j = hi /\ stocked s0 p (store_range n (Z.to_N i) text t) k (room + 11 * n) s')
    (wrounds fuel (fun i =>
            if (i <? hi)%Z then
              let$ _ := c_store_text p (mkPtr (length (s_heap s0)) 0) i (text (Z.to_N i)) in
              wret (inl (i + 1)%Z)
            else wret (inr i)) i s).
Proof.
  intros Hh. induction n as [|n IH]; intros fuel i s t room Tx Eh Li Lf St Ow; (destruct fuel as [|fuel]; [lia|]); cbn [wrounds store_range].
  - replace (i <? hi)%Z with false by (symmetry; apply Z.ltb_ge; lia). rewrite wbind_ret. constructor. split; [lia|]. eapply stocked_more; [exact St|lia..].
  - replace (i <? hi)%Z with true by (symmetry; apply Z.ltb_lt; lia). rewrite wbind_assoc.
    destruct (Tx (Z.to_N i) ltac:(lia)) as (Nt & Lt). replace (Z.to_N i + 1)%N with (Z.to_N (i + 1)) by lia.
    eapply ends_bind.
    { eapply ends_weaken; [apply (store_text_ok s0 p t k room s i (text (Z.to_N i)) St Nt Lt); lia| |intros a s' HQ; exact HQ].
      intros h m A. eapply asking_more; [exact A|lia]. }
    intros [] s2 St2. rewrite wbind_ret. pose proof (put_overwrites t (Z.to_N i) (snprintf (text (Z.to_N i)))).
    eapply ends_weaken; [eapply (IH fuel (i + 1)%Z s2 _ (room + 11)); [|lia|lia|lia|exact St2|lia]| |].
    + intros j Lj. apply Tx. lia.
    + intros h m A. eapply asking_more; [exact A|lia].
    + intros j s' (-> & S'). split; [reflexivity|]. eapply stocked_more; [exact S'|lia..].
Qed.

Lemma stocked_fuel s0 p t k room s : stocked s0 p t k room s -> length (t_rows t) <= heap_size (s_heap s).
Proof.
  intros (c & own & cells & more & (rp & ds & df & CP & CR & F & _) & _). pose proof (content_size _ _ _ CR) as Sz.
  rewrite row_values_length in Sz by exact (Forall2_len _ _ _ F). lia.
Qed.

Lemma store_missing_overwrites n : forall i t, t_overwrites (store_missing n i t) <= t_overwrites t + n.
Proof.
  induction n as [|n IH]; intros i t; cbn [store_missing]; [lia|]. destruct (table_get t i); [specialize (IH (i + 1)%N t); lia|].
  specialize (IH (i + 1)%N (fst (table_put t i (snprintf [Nb i])))). pose proof (put_overwrites t i (snprintf [Nb i])). lia.
Qed.

Lemma store_range_overwrites text n : forall i t, t_overwrites (store_range n i text t) <= t_overwrites t + n.
Proof.
  induction n as [|n IH]; intros i t; cbn [store_range]; [lia|].
  specialize (IH (i + 1)%N (fst (table_put t i (snprintf (text i))))). pose proof (put_overwrites t i (snprintf (text i))). lia.
Qed.

Lemma store_missing_rows n : forall i t, length (t_rows (store_missing n i t)) = length (t_rows t).
Proof. induction n as [|n IH]; intros i t; cbn [store_missing]; [reflexivity|]. rewrite IH. destruct (table_get t i); [reflexivity|]. apply table_put_length. Qed.

Lemma store_range_rows text n : forall i t, length (t_rows (store_range n i text t)) = length (t_rows t).
Proof. induction n as [|n IH]; intros i t; cbn [store_range]; [reflexivity|]. rewrite IH. apply table_put_length. Qed.

Lemma hex_nonul w n : nonul (hex_upper w n).
Proof.
  pose proof (hex_upper_case w n) as U. unfold upper_case in U. rewrite Forall_forall in U. intros I. apply U in I. vm_compute in I. decompose [or] I; (discriminate || contradiction).
Qed.

Lemma malloc_ok (s : store_t) n : ends (fun h k => h = s_heap s /\ k = n) (fun p s' => p = mkPtr (length (s_heap s)) 0 /\ s' = grow s [blank n]) (bytes (malloc n) s).
Proof. unfold bytes, malloc. destruct (refusal_of (s_heap s) n) as [message|] eqn:E; [cbn; econstructor 2; eauto|]. rewrite tbind_done. constructor. auto. Qed.

Lemma static_grow s h p t c own : table_seen s p t c own -> table_seen (grow s h) p t c own.
Proof.
  intros (rp & ds & df & CP & CR & F & D & Eo & R). exists rp, ds, df.
  assert (Tx : forall q x, text_in (s_heap s) q x -> text_in (s_heap s ++ h) q x) by (intros [q|] [x|]; cbn; auto; intros C; now apply cstr_old).
  splits; auto; [now apply content_grow..|]. eapply Forall2_impl; [|exact F]. intros d r X. now apply Tx.
Qed.

Lemma escape_room : N.of_nat (copy_room builtin_c_escape_table 0x110000) = (64 + 16 * 0x110000 + 158)%N.
Proof.
  unfold copy_room. change (t_default builtin_c_escape_table) with (@None str). change (t_rows builtin_c_escape_table) with builtin_c_escape_rows.
  change (texts_room builtin_c_escape_rows) with 158. unfold text_room, new_size. destruct (Z.leb_spec 0x110000 0); lia.
Qed.

(** What generate_c_escape_table leaves *)
Definition generates (s0 : store_t) (q : option ptr) (s' : store_t) : Prop :=
  exists p c own more, q = Some p /\ table_at s' p generate_c_escape_table c own /\ seldom 95 c /\ s_heap s' = s_heap s0 ++ None :: more /\
    (forall b, In b own -> length (s_heap s0) < b) /\ (forall b, b < length (s_heap s0) -> s_words s' b = s_words s0 b) /\
    live more = length own + t_overwrites generate_c_escape_table /\ (N.of_nat (heap_size more) + 16 <= table_takes)%N.

Theorem generate_ok s0 static c blocks : limited al -> table_seen s0 static builtin_c_escape_table c blocks ->
  ends (taking s0 table_takes) (generates s0) (c_generate_c_escape_table static s0).
Proof.
  intros Lim Se. unfold c_generate_c_escape_table, generates, generate_c_escape_table. cbv zeta.
  pose proof escape_room as Er. destruct (first_table 0x110000 ltac:(lia)) as (_ & L0 & _).
  assert (L0' : N.of_nat (length (t_rows (table_resize builtin_c_escape_table 0x110000 true))) = 0x110000%N) by (rewrite L0; lia). clear L0. rename L0' into L0.
  assert (Et : exists k, k = table_takes) by eauto. destruct Et as (takes & Et). rewrite <- Et. unfold table_takes in Et.
  assert (Ro : forall h n, (exists more, h = s_heap (grow s0 [blank 16]) ++ more /\ heap_size more + N.to_nat n <= copy_room builtin_c_escape_table 0x110000) -> taking s0 takes h n).
  { intros h n (more & -> & Le). unfold taking. cbn [grow s_heap]. rewrite !size_app. change (heap_size [blank 16]) with 16. lia. }
  pose proof (fun Z1 Z2 => resize_seen (grow s0 [blank 16]) static builtin_c_escape_table c blocks 0x110000 true Lim (static_grow _ _ _ _ _ _ Se) wf_c_escape Z1 Z2) as Rs.
  specialize (Rs ltac:(unfold int_max; lia) ltac:(cbn; unfold int_max; lia)).
  assert (Ov : t_overwrites builtin_c_escape_table = 0) by reflexivity.
  set (room := copy_room builtin_c_escape_table 0x110000) in *. clearbody room.
  set (t0 := table_resize builtin_c_escape_table 0x110000 true) in *. clearbody t0.
  generalize (N2Nat.id (0x7F - 0x20)). generalize (N.to_nat (0x7F - 0x20)). intros n1 E1.
  generalize (N2Nat.id (0x10000 - 0x80)). generalize (N.to_nat (0x10000 - 0x80)). intros n2 E2.
  generalize (N2Nat.id (0x110000 - 0x10000)). generalize (N.to_nat (0x110000 - 0x10000)). intros n3 E3.
  change (0x7F - 0x20)%N with 95%N in E1. change (0x10000 - 0x80)%N with 65408%N in E2, Et. change (0x110000 - 0x10000)%N with 1048576%N in E3, Et.
  assert (As : forall r h n, (N.of_nat (16 + r) <= takes)%N -> asking s0 r h n -> taking s0 takes h n).
  { intros r h n Le (more & -> & Lm). unfold taking. rewrite size_app. lia. }
  eapply ends_bind.
  { eapply ends_weaken; [apply (malloc_ok s0 (N.of_nat MAX_LENGTH))| |intros a s' HQ; exact HQ].
    intros h n (-> & ->). unfold taking. change (N.of_nat MAX_LENGTH) with 16%N. lia. }
  intros w s1 (-> & ->). change (blank (N.of_nat MAX_LENGTH)) with (blank 16).
  eapply ends_bind; [eapply ends_weaken; [exact Rs|exact Ro|intros a s' HQ; exact HQ]|].
  intros p s2 (Ep & own & more & _ & T & H & W & On & Lv & Eo & Sz).
  assert (St : stocked s0 p t0 0 room s2).
  { cbn [grow s_heap s_words] in *. exists fresh_counters, own, (repeat None 16), more. splits; auto.
    - unfold seldom, fresh_counters. cbn. lia.
    - now rewrite H, <- app_assoc.
    - intros b I. apply On in I. rewrite app_length in I. cbn [length] in I. lia.
    - intros b Lb. rewrite W; [reflexivity|]. rewrite app_length. lia.
    - lia. }
  assert (Ov0 : t_overwrites t0 = 0) by lia. clear Ep own more T H W On Lv Eo Sz Rs Ro.
  eapply ends_bind.
  { unfold c_store_missing, wwhile. eapply ends_weaken; [apply (missing_rounds s0 p 0x7F ltac:(lia) n1 _ 0x20%Z s2 t0 0 room); [lia|lia| |exact St|unfold int_max; lia|unfold int_max; lia]| |intros a s' HQ; exact HQ].
    - pose proof (stocked_fuel _ _ _ _ _ _ St). lia.
    - intros h n. apply As. lia. }
  intros j s3 (_ & St1). change (Z.to_N 0x20) with 0x20%N in St1. replace (0 + n1) with 95 in St1 by lia.
  pose proof (store_missing_overwrites n1 0x20 t0) as Ov1. pose proof (store_missing_rows n1 0x20 t0) as L1. set (t1 := store_missing n1 0x20 t0) in *. clearbody t1.
  eapply ends_bind.
  { unfold c_store_range, wwhile. eapply ends_weaken; [apply (range_rounds s0 p 95 (fun i => backslash :: "u"%byte :: hex_upper 4 i) 0x10000 ltac:(lia) n2 _ 0x80%Z s3 t1 (room + 11 * n1)); [|lia|lia| |exact St1|unfold int_max; lia]| |intros a s' HQ; exact HQ].
    - intros k K. split.
      + intros [E|[E|I]]; [discriminate..|]. exact (hex_nonul _ _ I).
      + cbn [length]. rewrite hex_upper_length; [lia|lia|]. change (16 ^ N.of_nat 4)%N with 0x10000%N. lia.
    - pose proof (stocked_fuel _ _ _ _ _ _ St1). lia.
    - intros h n. apply As. lia. }
  intros i s4 (-> & St2). change (Z.to_N 0x80) with 0x80%N in St2.
  pose proof (store_range_overwrites (fun i => backslash :: "u"%byte :: hex_upper 4 i) n2 0x80 t1) as Ov2. pose proof (store_range_rows (fun i => backslash :: "u"%byte :: hex_upper 4 i) n2 0x80 t1) as L2.
  set (t2 := store_range n2 0x80 _ t1) in *. clearbody t2.
  eapply ends_bind.
  { unfold c_store_range, wwhile. eapply ends_weaken; [apply (range_rounds s0 p 95 (fun i => backslash :: "U"%byte :: hex_upper 8 i) 0x110000 ltac:(lia) n3 _ 0x10000%Z s4 t2 (room + 11 * n1 + 11 * n2)); [|lia|lia| |exact St2|unfold int_max; lia]| |intros a s' HQ; exact HQ].
    - intros k K. split.
      + intros [E|[E|I]]; [discriminate..|]. exact (hex_nonul _ _ I).
      + cbn [length]. rewrite hex_upper_length; [lia|lia|]. change (16 ^ N.of_nat 8)%N with 0x100000000%N. lia.
    - pose proof (stocked_fuel _ _ _ _ _ _ St2). lia.
    - intros h n. apply As. lia. }
  intros i s5 (_ & St3). change (Z.to_N 0x10000) with 0x10000%N in St3. set (t3 := store_range n3 0x10000 _ t2) in *. clearbody t3.
  destruct St3 as (cn & own & cells & more & T & Sd & H & Lc & On & W & Lv & Sz).
  assert (Nc : nth_error (s_heap s5) (length (s_heap s0)) = Some (Some cells)) by (rewrite H, nth_error_app2, Nat.sub_diag by lia; reflexivity).
  step (bytes_done _ _ _ _ (free_ok _ _ _ Nc)). constructor. exists p, cn, own, more. cbn [s_heap s_words].
  assert (H' : set_block (s_heap s5) (length (s_heap s0)) None = s_heap s0 ++ None :: more) by (rewrite H; apply set_middle). rewrite H'. splits; auto; [|lia].
  apply (table_at_same s5); [|exact T]. intros b I. split; [|reflexivity]. apply On in I. cbn [s_heap]. rewrite H. rewrite !nth_error_app2 by lia.
  destruct (b - length (s_heap s0)) eqn:E; [lia|reflexivity].
Qed.

End table.
