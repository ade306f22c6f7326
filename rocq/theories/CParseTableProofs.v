(** * Proofs about loading a table into memory *)

From Verif Require Import Base BaseFacts Stdio StdioFacts Table TableSpec TableProofs ParseTable ParseTableSpec ParseTableProofs TableFileSpec TableFileProofs
  Prog Warnings WarningsProofs Startup StartProofs4 Mem MemSpec MemFacts CFiltersProofs Words WordsSpec WordsFacts CTable CTableProofs CTableProofs2 TablesSpec CTableProofs3
  CParseTable LoadSpec.

Local Open Scope nat_scope.

Ltac step L := rewrite (wbind_done _ _ _ _ _ L).

(** ** Buffers *)

Definition buffer (h : heap) (b : nat) : Prop := exists cells, nth_error h b = Some (Some cells) /\ length cells = TABLE_BUFFER.

Lemma write_buffer h b w : buffer h b -> length w <= TABLE_BUFFER -> exists cells, length cells = TABLE_BUFFER /\
  c_write (mkPtr b 0) w h = done (mkPtr b (length w), set_block h b (Some cells)) /\ exists rest, cells = map Some w ++ rest.
Proof.
  intros (cells & E & L) Lw. exists (map Some w ++ skipn (length w) cells). splits.
  - rewrite app_length, map_length, skipn_length. lia.
  - rewrite (write_over w h b 0 cells E ltac:(lia)). reflexivity.
  - eauto.
Qed.

Lemma buffer_old h b : buffer h b -> b < length h.
Proof. intros (c & E & _). apply nth_error_Some. congruence. Qed.

Lemma cstr_written h b w rest : b < length h -> nonul w -> cstr_at (set_block h b (Some (map Some w ++ Some NUL :: rest))) (mkPtr b 0) w.
Proof. intros L Nn. apply cstr_block with (rest := rest); [now apply set_same|exact Nn]. Qed.

Lemma put_string h b w : buffer h b -> nonul w -> length w < TABLE_BUFFER -> exists cells, length cells = TABLE_BUFFER /\
  c_put_string (mkPtr b 0) w h = done (tt, set_block h b (Some cells)) /\ cstr_at (set_block h b (Some cells)) (mkPtr b 0) w.
Proof.
  intros B Nn L. destruct (write_buffer h b (w ++ [NUL]) B) as (cells & Lc & E & rest & Er); [rewrite app_length; cbn [length]; lia|].
  exists cells. splits; auto.
  - unfold c_put_string. now rewrite (mbind_done _ _ _ _ _ E).
  - rewrite Er, map_app, <- app_assoc. apply cstr_written; [now apply buffer_old|exact Nn].
Qed.

Lemma cstr_split l : exists rest, l ++ [NUL] = cstr l ++ NUL :: rest.
Proof.
  induction l as [|c l (rest & IH)]; [now exists []|]. cbn [cstr app]. destruct (beq c NUL) eqn:N; [apply beq_eq in N as ->; now exists (l ++ [NUL])|].
  exists rest. cbn [app]. now rewrite IH.
Qed.

Lemma fgets_in_memory h b input piece rest : buffer h b -> fgets_bytes 1023 input = (piece, rest) -> exists cells, length cells = TABLE_BUFFER /\
  c_fgets (mkPtr b 0) input h = done (rest, set_block h b (Some cells)) /\ cstr_at (set_block h b (Some cells)) (mkPtr b 0) (cstr piece).
Proof.
  intros B E. assert (Lp : length piece <= 1023) by (apply fgets_bytes_spec in E; tauto).
  destruct (write_buffer h b (piece ++ [NUL]) B) as (cells & Lc & W & r & Er); [rewrite app_length; unfold TABLE_BUFFER; cbn [length]; lia|].
  exists cells. splits; auto.
  - unfold c_fgets. change (TABLE_BUFFER - 1) with 1023. rewrite E. now rewrite (mbind_done _ _ _ _ _ W).
  - destruct (cstr_split piece) as (x & Ex). rewrite Er, Ex, map_app, <- app_assoc. apply cstr_written; [now apply buffer_old|apply nonul_cstr].
Qed.

Lemma until_nonul stop s : nonul s -> nonul (fst (scan_until stop s)).
Proof.
  intros Nn. pose proof (scan_until_inv stop s) as H. destruct (scan_until stop s) as [w r]. destruct H as (-> & _). now apply nonul_app in Nn.
Qed.

Lemma until_length stop s : length (fst (scan_until stop s)) <= length s.
Proof. pose proof (scan_until_inv stop s) as H. destruct (scan_until stop s) as [w r]. destruct H as (-> & _). rewrite app_length. cbn. lia. Qed.

(** The text on a line, stored in the other buffer. *)
Lemma scan_text_in_memory h p b former c r : cstr_at h p (c :: r) -> p_block p <> b -> buffer h b -> cstr_at h (mkPtr b 0) former ->
  stops (c :: r) -> length (c :: r) <= 1023 -> exists cells, length cells = TABLE_BUFFER /\
  c_scan_text p (mkPtr b 0) h = done (tt, set_block h b (Some cells)) /\ cstr_at (set_block h b (Some cells)) (mkPtr b 0) (text_of former (c :: r)).
Proof.
  intros C D B F S L. destruct (cstr_cons _ _ _ _ C) as (Ld & Cr & Nz). pose proof (cstr_at_nonul _ _ _ C) as Nn.
  assert (Keep : exists cells, length cells = TABLE_BUFFER /\ mret tt h = done (tt, set_block h b (Some cells)) /\ cstr_at (set_block h b (Some cells)) (mkPtr b 0) former).
  { destruct B as (cells & E & Lc). exists cells. rewrite (set_id h b _ E). auto. }
  assert (Put : forall w, nonul w -> length w <= length (c :: r) -> exists cells, length cells = TABLE_BUFFER /\
     c_put_string (mkPtr b 0) w h = done (tt, set_block h b (Some cells)) /\ cstr_at (set_block h b (Some cells)) (mkPtr b 0) w).
  { intros w Nw Lw. apply put_string; auto. unfold TABLE_BUFFER. lia. }
  assert (Nr : nonul r) by (now apply nonul_cons in Nn).
  assert (Q : forall q, exists cells, length cells = TABLE_BUFFER /\
     (match scan_set q r with Some w => c_put_string (mkPtr b 0) w | None => mret tt end) h = done (tt, set_block h b (Some cells)) /\
     cstr_at (set_block h b (Some cells)) (mkPtr b 0) (match fst (scan_until (beq q) r) with [] => former | w => w end)).
  { intros q. unfold scan_set. pose proof (until_nonul (beq q) r Nr) as Nu. pose proof (until_length (beq q) r) as Lu.
    destruct (fst (scan_until (beq q) r)) as [|x w]; [exact Keep|]. apply Put; [exact Nu|cbn [length] in *; lia]. }
  unfold c_scan_text, text_of. rewrite (mbind_done _ _ _ _ _ Ld).
  destruct (beq c double_quote) eqn:N1; [apply beq_eq in N1; subst c|].
  { rewrite (mbind_done _ _ _ _ _ (read_ok _ _ _ Cr)). cbn [orb]. apply Q. }
  rewrite (mbind_done _ _ _ _ _ Ld). destruct (beq c single_quote) eqn:N2; [apply beq_eq in N2; subst c|].
  { rewrite (mbind_done _ _ _ _ _ (read_ok _ _ _ Cr)). cbn [orb]. apply Q. }
  cbn [orb]. rewrite (mbind_done _ _ _ _ _ (read_ok _ _ _ C)). unfold scan_s.
  replace (skip_space (c :: r)) with (0, c :: r) by (cbn; cbn in S; now rewrite S).
  pose proof (until_nonul is_space _ Nn) as Nu. pose proof (until_length is_space (c :: r)) as Lu.
  destruct (scan_until is_space (c :: r)) as [w r']. apply Put; auto.
Qed.

Section parsing.

Context {al : allocator}.

(** The statistics of the table; [w0] says how many of its overwrites it has taken over. *)
Context {cn : counters} {w0 : nat}.

Lemma live_keep h : forall i c c', nth_error h i = Some (Some c) -> live (set_block h i (Some c')) = live h.
Proof.
  unfold live. induction h as [|x h IH]; intros [|i] c c' E; try discriminate; cbn in *.
  - now injection E as ->.
  - destruct (is_live x); cbn; rewrite (IH _ _ _ E); reflexivity.
Qed.

(** What holds while a file is read into a table: [k] default texts are lost so far. *)
Definition parsing (s0 s : store_t) (p : ptr) (W P : nat) (t : table) (k z : nat) : Prop :=
  exists own more, table_at s p t cn own /\ wf t /\ t_builtin t = false /\ t_overwrites t <= t_used t + w0 /\
    (Z.of_nat (length (t_rows t)) < int_max)%Z /\
    s_heap s = s_heap s0 ++ more /\ (forall b, In b own -> length (s_heap s0) <= b /\ b <> W /\ b <> P) /\
    length (s_heap s0) <= W /\ length (s_heap s0) <= P /\ W <> P /\ buffer (s_heap s) W /\ buffer (s_heap s) P /\
    (forall b, b < length (s_heap s0) -> s_words s b = s_words s0 b) /\
    live more + w0 = 2 + length own + t_overwrites t + k /\ heap_size more = z.

Lemma buffer_set h b i cells : buffer h b -> length cells = TABLE_BUFFER -> i < length h -> buffer (set_block h i (Some cells)) b.
Proof.
  intros (c & E & L) Lc Li. destruct (Nat.eq_dec b i) as [->|N]; [exists cells; rewrite set_same by exact Li; auto|].
  exists c. rewrite set_other by auto. auto.
Qed.

Lemma size_keep h i c cells : nth_error h i = Some (Some c) -> length cells = length c -> heap_size (set_block h i (Some cells)) = heap_size h.
Proof.
  revert i. induction h as [|b h IH]; intros [|i] E L; cbn in E; try discriminate.
  - injection E as ->. unfold heap_size. cbn. now rewrite L.
  - change (set_block (b :: h) (S i) (Some cells)) with (b :: set_block h i (Some cells)). rewrite (size_app [b] (set_block h i (Some cells)) : heap_size (b :: _) = _), (IH i E L), (size_app [b] h : heap_size (b :: _) = _). reflexivity.
Qed.

Lemma size_string x : heap_size [string_block x] = length x + 1.
Proof. unfold string_block. rewrite size_one, app_length, map_length. reflexivity. Qed.

Lemma parsing_set s0 s p W P t k z b cells : parsing s0 s p W P t k z -> b = W \/ b = P -> length cells = TABLE_BUFFER ->
  parsing s0 (mkStore (set_block (s_heap s) b (Some cells)) (s_words s)) p W P t k z.
Proof.
  intros (own & more & T & Wf & Nb & Ow & Ln & H & On & LW & LP & D & BW & BP & Ws & Lv & Hz) Eb Lc.
  assert (Bb : buffer (s_heap s) b /\ length (s_heap s0) <= b) by (destruct Eb as [-> | ->]; auto). destruct Bb as (Bb & Lb).
  pose proof (buffer_old _ _ Bb) as Lo.
  exists own, (set_block more (b - length (s_heap s0)) (Some cells)). cbn [s_heap s_words]. splits; auto.
  - apply (table_at_same s); [|exact T]. intros x Ix. cbn [s_heap s_words]. split; [|reflexivity]. apply set_other. destruct (On x Ix) as (_ & A & B). destruct Eb as [-> | ->]; auto.
  - rewrite H. rewrite <- set_app_r. f_equal. lia.
  - now apply buffer_set.
  - now apply buffer_set.
  - rewrite <- Lv. f_equal. destruct Bb as (c & E & _). apply (live_keep more _ c). rewrite H, nth_error_app2 in E by exact Lb. exact E.
  - rewrite <- Hz. destruct Bb as (c & E & L). rewrite H, nth_error_app2 in E by exact Lb. apply (size_keep more _ c _ E). congruence.
Qed.

Lemma parsing_put s0 s p W P t k z key data d : w0 = 0 -> parsing s0 s p W P t k z -> cstr_at (s_heap s) d data -> length data <= 1023 -> (key < 2 ^ 32)%N ->
  ends (fun h n => exists more, h = s_heap s0 ++ more /\ heap_size more + N.to_nat n <= z + (length data + 1))
       (fun off s' => match effect (Entry key data) t with
                      | Some t' => (off =? -1)%Z = false /\ parsing s0 s' p W P t' k (z + (length data + 1)) /\ exists new, s_heap s' = s_heap s ++ new
                      | None => (off =? -1)%Z = true /\ s' = s
                      end)
       (c_table_put (Some p) key d s).
Proof.
  intros Wz (own & more & T & Wf & Nb & Ow & Ln & H & On & LW & LP & D & BW & BP & Ws & Lv & Hz) Cd Ld Kr.
  pose proof (wf_used _ Wf) as Us.
  eapply ends_weaken; [apply (put_in_memory s p t cn own key d data T Cd); [unfold strlen; lia|exact Kr|lia]|intros h n (-> & ->); exists more; split; [exact H|unfold strlen; lia]|].
  intros off s' (own' & -> & T' & Sb & R). unfold effect.
  destruct (table_put t key data) as [t' [i|]] eqn:E; cbn [fst snd] in *.
  - split; [apply nonneg_not_minus_one|]. destruct R as (H' & In' & Lo).
    pose proof (wf_put t key data Wf) as W'. rewrite E in W'. cbn [fst] in W'.
    pose proof (buffer_old _ _ BW) as OW. pose proof (buffer_old _ _ BP) as OP.
    assert (Lh : length (s_heap s0) <= length (s_heap s)) by (rewrite H, app_length; lia).
    split; [|eauto]. exists own', (more ++ [string_block data]). splits; auto.
    + pose proof (put_builtin t key data) as B. rewrite E in B. cbn in B. congruence.
    + destruct (table_put_cases t key data Wf) as [[X _]|(K & U & o & X)]; [rewrite E in X; discriminate|].
      destruct (table_put_accept t key data Wf K U) as (o' & TP & _). rewrite E in TP. injection TP as -> _. cbn [t_overwrites t_used].
      destruct (_ =? key)%N; lia.
    + pose proof (put_length_eq t key data) as L'. rewrite E in L'. cbn [fst] in L'. now rewrite L'.
    + rewrite H', H. now rewrite <- app_assoc.
    + intros b Ib. apply In' in Ib as [<-|Ib]; [|now apply On]. splits; lia.
    + destruct BW as (c & Ec & Lc). exists c. rewrite H'. split; [now apply nth_old|exact Lc].
    + destruct BP as (c & Ec & Lc). exists c. rewrite H'. split; [now apply nth_old|exact Lc].
    + intros b Lb. rewrite <- Ws by exact Lb. apply Sb. intros Ib. apply On in Ib. lia.
    + rewrite live_app. unfold live at 2. cbn [filter is_live length string_block]. lia.
    + rewrite size_app, size_string. lia.
  - split; [reflexivity|]. tauto.
Qed.

(** The default *)
Definition dropped (d : directive) (t : table) : nat := match d, t_default t with Default _, Some _ => 1 | _, _ => 0 end.

Lemma block_list_cons q ds : block_list (q :: ds) = block_list [q] ++ block_list ds.
Proof. exact (block_list_app [q] ds). Qed.

Lemma table_default s p t own x q w : table_at s p t cn own -> string_in (s_heap s) q x -> (forall a, q = Some a -> ~ In (p_block a) own) -> stands_for (Some w) (Adr q) ->
  exists own', assign p T_default_translation w s = done (tt, assigned s p 3 w) /\ table_at (assigned s p 3 w) p (set_default t x) cn own' /\
    (forall b, In b own' -> In b own \/ exists a, q = Some a /\ b = p_block a) /\
    length own' + (if t_default t then 1 else 0) = length own + (if x then 1 else 0).
Proof.
  intros (rp & ds & df & CP & CR & F & D & Eo & ND & Ra) Sx Nq Sw.
  assert (Dist : p_block rp <> p_block p).
  { rewrite Eo in ND. apply NoDup_cons_iff in ND as (X & _). intros E. apply X. rewrite E. now left. }
  exists (p_block p :: p_block rp :: block_list (q :: ds)). splits.
  - apply (assign_ok s p _ 3 w CP). cbn. lia.
  - exists rp, ds, q. splits; auto.
    + exact (assigned_content s p _ 3 w (Adr q) CP Sw).
    + now apply assigned_other.
    + rewrite Eo in ND, Nq. revert ND. rewrite ?(block_list_cons df ds). rewrite ?(block_list_cons q ds).
      intros ND. assert (ND' : NoDup (p_block p :: p_block rp :: block_list ds)).
      { apply NoDup_cons_iff in ND as (A & ND). apply NoDup_cons_iff in ND as (B & ND). constructor; [|constructor].
        - intros [I|I]; apply A; [now left|right; apply in_or_app; now right].
        - intros I. apply B. apply in_or_app. now right.
        - clear - ND. destruct df as [a|]; [now apply NoDup_cons_iff in ND|exact ND]. }
      destruct q as [a|]; [|exact ND']. cbn [block_list flat_map app].
      assert (Na : ~ In (p_block a) (p_block p :: p_block rp :: block_list ds)).
      { intros I. apply (Nq a eq_refl). destruct I as [I|[I|I]]; [now left|right; now left|right; right]. rewrite ?(block_list_cons df ds). apply in_or_app. now right. }
      apply NoDup_cons_iff in ND' as (A & ND'). apply NoDup_cons_iff in ND' as (B & ND'). fold (block_list ds). cbn [In] in *.
      assert (p_block a <> p_block p /\ p_block a <> p_block rp) by (split; intros E; apply Na; rewrite E; auto).
      constructor; [|constructor; [|constructor]]; cbn [In]; tauto.
  - intros b [<-|[<-|I]]; [left; rewrite Eo; now left|left; rewrite Eo; right; now left|].
    apply in_block_list in I as (a & [->|I] & ->); [right; eauto|]. left. rewrite Eo. right. right. apply in_block_list. exists a. split; [now right|reflexivity].
  - rewrite Eo. cbn [length]. rewrite ?(block_list_cons df ds). rewrite ?(block_list_cons q ds).
    rewrite !app_length. destruct q, x; try easy; destruct df, (t_default t); try easy; cbn; lia.
Qed.

Lemma parsing_default s0 s p W P t k z x q w more1 : parsing s0 s p W P t k z ->
  match x with Some text => q = Some (mkPtr (length (s_heap s)) 0) /\ more1 = [string_block text] /\ nonul text | None => q = None /\ more1 = [] end ->
  stands_for (Some w) (Adr q) ->
  exists s', assign p T_default_translation w (grow s more1) = done (tt, s') /\ parsing s0 s' p W P (set_default t x) (k + dropped (Default x) t) (z + text_bytes [Default x]) /\
    s_heap s' = s_heap (grow s more1).
Proof.
  intros (own & more & T & Wf & Nb & Ow & Ln & H & On & LW & LP & D & BW & BP & Ws & Lv & Hz) X Sw.
  assert (T1 : table_at (grow s more1) p t cn own).
  { apply (table_at_same s); [|exact T]. intros b Ib. split; [|reflexivity]. apply nth_error_app1. exact (own_old _ _ _ _ _ _ T Ib). }
  assert (Sx : string_in (s_heap (grow s more1)) q x).
  { destruct x as [text|]; [destruct X as (-> & -> & Nn)|destruct X as (-> & ->)]; [now apply string_in_new|exact I]. }
  assert (Nq : forall a, q = Some a -> ~ In (p_block a) own).
  { intros a Ea I. destruct x; [|destruct X as (-> & _); discriminate]. destruct X as (-> & _). injection Ea as <-. apply (own_old _ _ _ _ _ _ T) in I. cbn in I. lia. }
  destruct (table_default _ p t own x q w T1 Sx Nq Sw) as (own' & A & T2 & In' & Lo).
  eexists. splits; [exact A| |reflexivity].
  pose proof (buffer_old _ _ BW) as OW. pose proof (buffer_old _ _ BP) as OP.
  assert (Lh : length (s_heap s0) <= length (s_heap s)) by (rewrite H, app_length; lia).
  exists own', (more ++ more1). splits; auto.
  - now apply wf_set_default.
  - cbn [assigned grow s_heap]. rewrite H. now rewrite <- app_assoc.
  - intros b Ib. apply In' in Ib as [Ib|(a & -> & ->)]; [now apply On|]. destruct x; [|destruct X; discriminate]. destruct X as (Ea & _). injection Ea as ->. cbn [p_block]. splits; lia.
  - destruct BW as (c & Ec & Lc). exists c. cbn [assigned grow s_heap]. split; [now apply nth_old|exact Lc].
  - destruct BP as (c & Ec & Lc). exists c. cbn [assigned grow s_heap]. split; [now apply nth_old|exact Lc].
  - intros b Lb. rewrite <- Ws by exact Lb. cbn [assigned grow s_words]. apply update_other. intros ->.
    destruct T as (rp & ds & df & _ & _ & _ & _ & Eo & _). assert (I : In (p_block p) own) by (rewrite Eo; now left). apply On in I. lia.
  - rewrite live_app. cbn [set_default t_overwrites]. unfold dropped.
    destruct x as [text|]; [destruct X as (_ & -> & _)|destruct X as (_ & ->)]; unfold live at 2; cbn [filter is_live length string_block]; destruct (t_default t); lia.
  - rewrite size_app, Hz. f_equal. cbn [text_bytes list_sum map fold_right]. destruct x as [text|]; [destruct X as (_ & -> & _)|destruct X as (_ & ->)]; [|reflexivity]. rewrite size_string. lia.
Qed.

(** ** Lines *)

Lemma scratch {A} s0 s p W P t k z (m : mem A) a cells line : parsing s0 s p W P t k z -> m (s_heap s) = done (a, set_block (s_heap s) P (Some cells)) ->
  length cells = TABLE_BUFFER -> cstr_at (s_heap s) (mkPtr W 0) line ->
  exists s1, bytes m s = done (a, s1) /\ parsing s0 s1 p W P t k z /\ cstr_at (s_heap s1) (mkPtr W 0) line /\ s_heap s1 = set_block (s_heap s) P (Some cells).
Proof.
  intros I E L C. eexists. splits; [exact (bytes_done _ _ _ _ E)|apply (parsing_set s0 s p W P t k z P cells I); auto| |reflexivity].
  cbn [s_heap]. apply cstr_set; [|exact C]. destruct I as (own & more & _ & _ & _ & _ & _ & _ & _ & _ & _ & D & _). exact D.
Qed.

Lemma parsing_P s0 s p W P t k z : parsing s0 s p W P t k z -> buffer (s_heap s) P.
Proof. now intros (own & more & _ & _ & _ & _ & _ & _ & _ & _ & _ & _ & _ & B & _). Qed.
Lemma parsing_W s0 s p W P t k z : parsing s0 s p W P t k z -> buffer (s_heap s) W.
Proof. now intros (own & more & _ & _ & _ & _ & _ & _ & _ & _ & _ & _ & B & _). Qed.
Lemma parsing_D s0 s p W P t k z : parsing s0 s p W P t k z -> W <> P.
Proof. now intros (own & more & _ & _ & _ & _ & _ & _ & _ & _ & _ & D & _). Qed.

Lemma offset_at h W line n r : cstr_at h (mkPtr W 0) line -> at_offset line (Some n) = Ok r -> cstr_at h (mkPtr W n) r.
Proof.
  intros C E. unfold at_offset in E. destruct (Nat.leb_spec n (length line)) as [L|L]; [|discriminate]. injection E as <-.
  rewrite <- (firstn_skipn n line) in C. apply cstr_skip in C. rewrite firstn_length_le in C by exact L. exact C.
Qed.

Lemma word_in_memory s0 s p W P t k z line former off : parsing s0 s p W P t k z -> cstr_at (s_heap s) (mkPtr W 0) line -> length line <= 1023 ->
  cstr_at (s_heap s) (mkPtr P 0) former ->
  match word_at line with
  | Some (w, r) => exists n s1, bytes (c_scan_word (mkPtr W 0) (mkPtr P 0) off) s = done ((true, Some n), s1) /\ parsing s0 s1 p W P t k z /\
      cstr_at (s_heap s1) (mkPtr W n) r /\ cstr_at (s_heap s1) (mkPtr P 0) w /\ length r <= 1023 /\ length w <= 1023
  | None => bytes (c_scan_word (mkPtr W 0) (mkPtr P 0) off) s = done ((false, off), s)
  end.
Proof.
  intros I C L F. pose proof (scan_word_at line) as S. pose proof (cstr_at_nonul _ _ _ C) as Nn.
  assert (Nw : forall w r, word_at line = Some (w, r) -> nonul w).
  { intros w r E. apply headed_iff in E as (a & b & -> & _). apply nonul_app in Nn as (_ & Nn). now apply nonul_app in Nn. }
  destruct (word_at line) as [[w r]|].
  - destruct S as (n & E & O & Lw & Lr).
    destruct (put_string (s_heap s) P w (parsing_P _ _ _ _ _ _ _ _ I) (Nw _ _ eq_refl)) as (cells & Lc & Ep & Cp); [unfold TABLE_BUFFER; lia|].
    destruct (scratch s0 s p W P t k z (c_scan_word (mkPtr W 0) (mkPtr P 0) off) (true, Some n) cells line I) as (s1 & E1 & I1 & C1 & H1); auto.
    { unfold c_scan_word. rewrite (mbind_done _ _ _ _ _ (read_ok _ _ _ C)), E. now rewrite (mbind_done _ _ _ _ _ Ep). }
    exists n, s1. splits; auto; try lia; [now apply (offset_at _ _ line)|now rewrite H1].
  - rewrite (bytes_done _ s (false, off) (s_heap s)); [now destruct s|]. unfold c_scan_word. now rewrite (mbind_done _ _ _ _ _ (read_ok _ _ _ C)), S.
Qed.

Lemma bytes_same {A} (m : mem A) s a : m (s_heap s) = done (a, s_heap s) -> bytes m s = done (a, s).
Proof. intros E. rewrite (bytes_done _ _ _ _ E). now destruct s. Qed.

Lemma starts_ok s q x n lit : cstr_at (s_heap s) q x -> bytes (c_starts n q lit) s = done (strncaseeq n x lit, s).
Proof. intros C. apply bytes_same. unfold c_starts. now rewrite (mbind_done _ _ _ _ _ (read_ok _ _ _ C)). Qed.

Lemma text_in_memory s0 s p W P t k z n c r former : parsing s0 s p W P t k z -> cstr_at (s_heap s) (mkPtr W n) (c :: r) -> cstr_at (s_heap s) (mkPtr P 0) former ->
  stops (c :: r) -> length (c :: r) <= 1023 ->
  exists s1, bytes (c_scan_text (mkPtr W n) (mkPtr P 0)) s = done (tt, s1) /\ parsing s0 s1 p W P t k z /\ cstr_at (s_heap s1) (mkPtr P 0) (text_of former (c :: r)).
Proof.
  intros I C F S L. destruct (scan_text_in_memory (s_heap s) (mkPtr W n) P former c r C) as (cells & Lc & E & Cp); auto.
  { exact (parsing_D _ _ _ _ _ _ _ _ I). } { exact (parsing_P _ _ _ _ _ _ _ _ I). }
  eexists. splits; [exact (bytes_done _ _ _ _ E)|apply (parsing_set s0 s p W P t k z P cells I); auto|exact Cp].
Qed.

Lemma text_length former s : length former <= 1023 -> length s <= 1023 -> length (text_of former s) <= 1023.
Proof.
  intros Lf Ls. destruct s as [|c r]; [exact Lf|]. unfold text_of. pose proof (until_length (beq c) r). pose proof (until_length is_space (c :: r)).
  cbn [length] in *. destruct (_ || _)%bool; [|lia]. destruct (fst (scan_until (beq c) r)); lia.
Qed.

Lemma number_range s n r : number_at s = Some (n, r) -> (n < 2 ^ 31)%Z.
Proof.
  unfold number_at. destruct (snd (skip_space s)) as [|c r']; [discriminate|]. destruct (if beq c "-" then _ else _) as [neg m].
  destruct (scan_magnitude m) as [[v rest]|]; [|discriminate]. intros [= <- _]. unfold to_int. 
  match goal with |- (((?a) mod _) - _ < _)%Z => pose proof (Z.mod_pos_bound a (2 ^ 32) ltac:(lia)) end. lia.
Qed.

Lemma load_head s q c r : cstr_at (s_heap s) q (c :: r) -> bytes (load q) s = done (c, s) /\ beq c NUL = false.
Proof. intros C. destruct (cstr_cons _ _ _ _ C) as (E & _ & Nz). split; [now apply bytes_same|now apply beq_neq]. Qed.

Lemma load_end s q : cstr_at (s_heap s) q [] -> bytes (load q) s = done (NUL, s).
Proof. intros C. apply bytes_same. now apply cstr_nil. Qed.

Lemma line_in_memory s0 s p W P t k z locale i off line j d : w0 = 0 -> parsing s0 s p W P t k z -> cstr_at (s_heap s) (mkPtr W 0) line -> length line <= 1023 ->
  means locale i line j d ->
  ends (fun h n => exists more, h = s_heap s0 ++ more /\ heap_size more + N.to_nat n <= z + text_bytes [d])
       (fun r s' => match effect d t with
                    | Some t' => exists off', r = inl (j, off') /\ parsing s0 s' p W P t' (k + dropped d t) (z + text_bytes [d])
                    | None => exists c x, d = Entry c x /\ r = inr c /\ parsing s0 s' p W P t k z /\ cstr_at (s_heap s') (mkPtr P 0) x
                    end)
       (c_parse_line locale p (mkPtr W 0) (mkPtr P 0) i off s).
Proof.
  intros Wz I C L M. apply means_iff in M. unfold meaning in M. unfold c_parse_line.
  assert (H : exists b, bytes (load (mkPtr W 0)) s = done (b, s) /\ beq b "#" = is_hash line).
  { destruct line as [|b r]; [exists NUL; split; [now apply load_end|reflexivity]|]. exists b. split; [now apply (load_head _ _ _ r)|reflexivity]. }
  destruct H as (b & Eb & Hb). step Eb. rewrite Hb. destruct (is_hash line).
  { injection M as <- <-. constructor. cbn [effect dropped text_bytes list_sum map fold_right]. exists off. rewrite !Nat.add_0_r. auto. }
  assert (E0 : exists s1, bytes (store (mkPtr P 0) NUL) s = done (tt, s1) /\ parsing s0 s1 p W P t k z /\ cstr_at (s_heap s1) (mkPtr W 0) line /\ cstr_at (s_heap s1) (mkPtr P 0) []).
  { destruct (put_string (s_heap s) P [] (parsing_P _ _ _ _ _ _ _ _ I)) as (cells & Lc & Ep & Cp); [apply nonul_nil|unfold TABLE_BUFFER; cbn; lia|].
    destruct (scratch s0 s p W P t k z (store (mkPtr P 0) NUL) tt cells line I) as (s1 & E1 & I1 & C1 & H1); auto.
    { revert Ep. unfold c_put_string. cbn [app c_write]. rewrite mbind_assoc. unfold mbind. destruct (store (mkPtr P 0) NUL (s_heap s)) as [said [[[] h]| |]] eqn:E; cbn; rewrite ?app_nil_r; congruence. }
    exists s1. splits; auto. now rewrite H1. }
  destruct E0 as (s1 & E1 & I1 & C1 & F1). step E1. clear I C E1 Eb s. rename s1 into s, I1 into I, C1 into C, F1 into F.
  pose proof (word_in_memory s0 s p W P t k z line [] off I C L F) as WM.
  pose proof (word_at_stops line) as WS. pose proof (scan_number_at line) as IA. pose proof (number_at_stops line) as NS. pose proof (number_range line) as NR.
  destruct i; cbn [negb].
  - (* inside *)
    assert (WD : forall off0 R, ends R
       (fun r s' => exists off', r = inl (match word_at line with Some (w, _) => negb (strncaseeq 5 w (bs "end")) | None => true end, off') /\ parsing s0 s' p W P t k z)
       ((let$ (found, offset) := bytes (c_scan_word (mkPtr W 0) (mkPtr P 0) off0) in
         let$ last := (if found : bool then bytes (c_starts 5 (mkPtr P 0) (bs "end")) else wret false) in
         wret (inl (negb last, offset) : outcome)) s)).
    { intros off0 R. clear WM. pose proof (word_in_memory s0 s p W P t k z line [] off0 I C L F) as WM. destruct (word_at line) as [[w r]|].
      - destruct WM as (n & s1 & E & I1 & _ & Cw & _). step E. cbv iota. step (starts_ok s1 _ w 5 (bs "end") Cw). constructor. eauto.
      - step WM. rewrite wbind_ret. constructor. eauto. }
    step (bytes_same (c_read (mkPtr W 0)) s line (read_ok _ _ _ C)).
    destruct (number_at line) as [[n r]|].
    + destruct IA as (m & -> & O & LR). destruct (n <? 0)%Z eqn:Neg.
      * injection M as <- <-. eapply ends_weaken; [apply (WD _ (fun _ _ => False))|easy|]. intros r' s' (off' & -> & I'). cbn [effect dropped text_bytes list_sum map fold_right]. exists off'. rewrite !Nat.add_0_r. auto.
      * apply Z.ltb_ge in Neg. injection M as <- <-. unfold c_at_offset. step (bytes_same (mret (plus (mkPtr W 0) m)) s (mkPtr W m) eq_refl).
        pose proof (offset_at _ _ _ _ _ C O) as Cr. destruct r as [|c r].
        { step (load_end _ _ Cr). constructor. cbn [effect dropped text_bytes list_sum map fold_right]. exists (Some m). rewrite !Nat.add_0_r. auto. }
        destruct (load_head _ _ _ _ Cr) as (El & Nz). step El. rewrite Nz.
        destruct (text_in_memory s0 s p W P t k z m c r [] I Cr F (NS _ _ eq_refl)) as (s1 & Et & I1 & Ct); [lia|]. step Et.
        eapply ends_bind.
        { eapply ends_weaken; [apply (parsing_put s0 s1 p W P t k z (Z.to_N n) _ _ Wz I1 Ct)|intros h n' (more & -> & Hs); exists more; split; [reflexivity|cbn [text_bytes list_sum map fold_right]; lia]|intros a s' X; exact X].
          - apply text_length; cbn [length] in *; lia.
          - specialize (NR _ _ eq_refl). lia. }
        intros o s' X. destruct (effect (Entry (Z.to_N n) (text_of [] (c :: r))) t) as [t'|].
        -- destruct X as (-> & I' & _). constructor. exists (Some m). cbn [dropped text_bytes list_sum map fold_right]. rewrite !Nat.add_0_r. auto.
        -- destruct X as (-> & ->). constructor. eexists _, _. splits; [reflexivity|reflexivity|exact I1|exact Ct].
    + destruct IA as (e & ->). change (-1 <? 0)%Z with true. cbv iota. injection M as <- <-.
      eapply ends_weaken; [apply (WD _ (fun _ _ => False))|easy|]. intros r' s' (off' & -> & I'). cbn [effect dropped text_bytes list_sum map fold_right]. exists off'. rewrite !Nat.add_0_r. auto.
  - (* outside *)
    destruct (word_at line) as [[w r]|].
    + destruct WM as (n & s1 & E & I1 & Cr & Cw & Lr & Lw). step E. cbv iota. specialize (WS w r eq_refl).
      step (starts_ok s1 _ w 5 (bs "start") Cw). destruct (strncaseeq 5 w (bs "start")); [|step (starts_ok s1 _ w 7 (bs "default") Cw); destruct (strncaseeq 7 w (bs "default"))];
        injection M as <- <-; cbn [effect dropped text_bytes list_sum map fold_right].
      * unfold c_at_offset. step (bytes_same (mret (plus (mkPtr W 0) n)) s1 (mkPtr W n) eq_refl). rewrite !Nat.add_0_r. destruct r as [|c r].
        { step (load_end _ _ Cr). constructor. eauto. }
        destruct (load_head _ _ _ _ Cr) as (El & Nz). step El. rewrite Nz.
        destruct (text_in_memory s0 s1 p W P t k z n c r w I1 Cr Cw WS Lr) as (s2 & Et & I2 & Ct). step Et.
        step (bytes_same (c_strlen (mkPtr P 0)) s2 _ (strlen_ok _ _ _ Ct)). step (starts_ok s2 _ _ (N.to_nat (strlen (text_of w (c :: r)))) locale Ct).
        unfold strlen. rewrite Nat2N.id. constructor. eauto.
      * unfold c_at_offset. step (bytes_same (mret (plus (mkPtr W 0) n)) s1 (mkPtr W n) eq_refl). destruct r as [|c r].
        { step (load_end _ _ Cr). cbn [beq]. destruct (parsing_default s0 s1 p W P t k z None None Zero [] I1) as (s2 & E2 & I2 & _); [auto|now left|].
          unfold grow in E2. rewrite app_nil_r in E2. change (beq NUL NUL) with true. cbv iota. replace s1 with (mkStore (s_heap s1) (s_words s1)) by now destruct s1.
          step E2. constructor. eauto. }
        destruct (load_head _ _ _ _ Cr) as (El & Nz). step El. rewrite Nz.
        destruct (text_in_memory s0 s1 p W P t k z n c r w I1 Cr Cw WS Lr) as (s2 & Et & I2 & Ct). step Et.
        pose proof (text_length w (c :: r) Lw Lr) as Lt.
        eapply ends_bind.
        { eapply ends_weaken; [apply (strdup_ok s2 _ _ Ct); unfold fits, strlen; lia| |intros a s' X; exact X].
          destruct I2 as (own & more & _ & _ & _ & _ & _ & H2 & _ & _ & _ & _ & _ & _ & _ & _ & Hz). intros h n' (-> & ->). exists more. split; [exact H2|].
          unfold strlen. lia. }
        intros q s' (-> & -> & _).
        destruct (parsing_default s0 s2 p W P t k z (Some (text_of w (c :: r))) (Some (mkPtr (length (s_heap s2)) 0)) (Ptr (mkPtr (length (s_heap s2)) 0)) [string_block (text_of w (c :: r))] I2) as (s3 & E3 & I3 & _).
        { splits; auto. exact (cstr_at_nonul _ _ _ Ct). } { right. eauto. }
        step E3. constructor. eauto.
      * constructor. exists (Some n). rewrite !Nat.add_0_r. auto.
    + step WM. injection M as <- <-. step (starts_ok s _ [] 5 (bs "start") F). change (strncaseeq 5 [] (bs "start")) with false. cbv iota.
      step (starts_ok s _ [] 7 (bs "default") F). change (strncaseeq 7 [] (bs "default")) with false. cbv iota. constructor. cbn [effect dropped text_bytes list_sum map fold_right]. exists off. rewrite !Nat.add_0_r. auto.
Qed.

End parsing.
