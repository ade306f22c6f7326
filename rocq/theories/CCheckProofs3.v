(** * Proofs about check-table in memory: the second time, and what is printed of a table *)

From Verif Require Import Base BaseFacts Stdio StdioFacts Table TableSpec TableProofs Prog ParseTable ParseTableSpec ParseTableProofs TableFileSpec TableFileProofs
  GenBuiltin GenSpec GenProofs Escape EscapeSpec EscapeProofs MainSpec CheckTable CheckSpec CheckProofs
  Warnings WarningsProofs Startup StartProofs4 Mem MemSpec MemFacts CFiltersProofs Words WordsSpec WordsFacts CTable CTableProofs CTableProofs2 TablesSpec CTableProofs3
  CParseTable LoadSpec CParseTableProofs CParseTableProofs2 LinkedSpec CConfigProofs5 CConfigProofs7 CCheck CCheckProofs CCheckProofs2 CCheckSpec.

Local Open Scope nat_scope.

Lemma below_more n m m' : below n m -> m <= m' -> below n m'.
Proof. unfold below. lia. Qed.

From Verif Require CReviewProofs.

Section check.

Context {al : allocator}.

(** ** Lines *)

Definition again_vars (st : again_state) : bool * option nat := (ag_inside st, ag_offset st).

Definition again_done {w0} (s0 : store_t) (p : ptr) (W P : nat) (t : table) (k z m : nat) (r : option again_state) (r' : option (bool * option nat)) (s' : store_t) : Prop :=
  r' = option_map again_vars r /\
  match r with
  | Some st => below (ag_counters st) m /\ @parsing (cset (ag_counters st)) w0 s0 s' p W P t k z
  | None => exists n, @parsing (cset n) w0 s0 s' p W P t k z
  end.

Lemma again_line_ok {w0} (R : heap -> N -> Prop) s0 s p W P t k z line st m : below (ag_counters st) m -> (Z.of_nat m < int_max)%Z ->
  @parsing (cset (ag_counters st)) w0 s0 s p W P t k z -> cstr_at (s_heap s) (mkPtr W 0) line -> length line <= 1023 ->
  follows R (fun _ _ => False) (@again_done w0 s0 p W P t k z (S m)) (again_line t line st) (c_again_line p (mkPtr W 0) (mkPtr P 0) (ag_inside st) (ag_offset st) s).
Proof.
  intros Bl Lm I C L. destruct st as [i off n].
  unfold c_again_line, again_line. cbn [ag_inside ag_offset ag_counters] in *.
  assert (Quiet : forall j' off' s', @parsing (cset n) w0 s0 s' p W P t k z ->
    follows R (fun _ _ => False) (@again_done w0 s0 p W P t k z (S m)) (done (Some (mkAgain j' off' n))) (done (Some (j', off'), s'))).
  { intros j' off' s' I'. apply follows_value. split; [reflexivity|]. cbn [ag_counters]. split; [eapply below_more; eauto|exact I']. }
  assert (H : exists b, bytes (load (mkPtr W 0)) s = done (b, s) /\ beq b "#" = is_hash line).
  { destruct line as [|b r]; [exists NUL; split; [now apply load_end|reflexivity]|]. exists b. split; [now apply (load_head _ _ _ r)|reflexivity]. }
  destruct H as (b & Eb & Hb). step Eb. rewrite Hb. fold (is_hash line). destruct (is_hash line); [now apply Quiet|].
  destruct (bytes_store _ _ _ _ _ _ _ _ _ _ line I C) as (s1 & E1 & I1 & C1 & F1). step E1. clear I C E1 Eb s. rename s1 into s, I1 into I, C1 into C, F1 into F.
  pose proof (word_in_memory s0 s p W P t k z line [] off I C L F) as WM. pose proof (scan_word_at line) as SW.
  pose proof (word_at_stops line) as WS. pose proof (scan_number_at line) as IA. pose proof (number_at_stops line) as NS.
  assert (Off : forall o w m1 m2 s1, scan_word line = Some (w, m1) -> bytes (c_scan_word (mkPtr W 0) (mkPtr P 0) o) s = done ((true, Some m2), s1) -> m1 = m2).
  { intros o w m1 m2 s1 Ew. unfold c_scan_word, bytes, mbind. rewrite (read_ok _ _ _ C). cbn [tbind done quietly]. rewrite Ew.
    destruct (c_put_string (mkPtr P 0) w (s_heap s)) as [oo [[u h']| |]]; cbn; try discriminate. intros E. injection E. auto. }
  destruct i; cbn [negb].
  - (* inside *)
    assert (WD : forall off0,
       follows R (fun _ _ => False) (@again_done w0 s0 p W P t k z (S m))
       (match scan_word line with
        | Some (w, m) =>
          let% parsed := quietly (store_parsed w) in
          done (Some (mkAgain (negb (strncaseeq 5 parsed (bs "end"))) (Some m) n))
        | None => done (Some (mkAgain true off0 n))
        end)
       ((let$ (found, offset) := bytes (c_scan_word (mkPtr W 0) (mkPtr P 0) off0) in
         let$ last0 := (if found : bool then bytes (c_starts 5 (mkPtr P 0) (bs "end")) else wret false) in
         wret (Some (negb last0, offset))) s)).
    { intros off0. clear WM. pose proof (word_in_memory s0 s p W P t k z line [] off0 I C L F) as WM. destruct (word_at line) as [[w r]|].
      - destruct SW as (m' & Ew & _ & Lw & _). rewrite Ew. rewrite store_short by lia. rewrite tbind_ok.
        destruct WM as (m1 & s1 & E & I1 & _ & Cw & _). pose proof (Off _ _ _ _ _ Ew E). subst m'. step E. cbv iota. step (starts_ok s1 _ w 5 (bs "end") Cw). now apply Quiet.
      - rewrite SW. step WM. rewrite wbind_ret. now apply Quiet. }
    step (read_same s _ _ C).
    destruct (number_at line) as [[zc r]|].
    + destruct IA as (m1 & -> & O & LR). destruct (zc <? 0)%Z eqn:Neg; [apply WD|].
      apply Z.ltb_ge in Neg. rewrite (at_start_text line (Some m1) r []) by (eauto; lia). rewrite tbind_done.
      unfold c_at_offset. step (bytes_same (mret (plus (mkPtr W 0) m1)) s (mkPtr W m1) eq_refl).
      pose proof (offset_at _ _ _ _ _ C O) as Cr. destruct r as [|c r].
      { step (load_end _ _ Cr). now apply Quiet. }
      destruct (load_head _ _ _ _ Cr) as (El & Nz). step El. rewrite Nz.
      destruct (text_in_memory s0 s p W P t k z m1 c r [] I Cr F (NS _ _ eq_refl)) as (s1 & Et & I1 & Ct); [lia|]. step Et.
      set (text := text_of [] (c :: r)) in *. set (code := Z.to_N zc) in *.
      destruct (parsing_get n s0 s1 p W P t k z code I1 (below_sound n m Bl Lm)) as (q & s2 & Eg & Sq & I2 & H2). step Eg. rewrite <- H2 in Ct.
      pose proof (below_get t code n _ Bl) as Bl'. destruct (counted_get t code n) as [check n']. cbn [fst snd] in *.
      assert (Same : (match q with Some check => bytes (c_same (mkPtr P 0) check) | None => wret false end) s2 =
        done (match check with Some d => str_eqb text d | None => false end, s2)).
      { destruct q as [q|], check as [d|]; try contradiction; [|reflexivity]. destruct Sq as (_ & Sq). exact (same_ok s2 _ _ _ _ Ct Sq). }
      step Same. destruct (match check with Some d => str_eqb text d | None => false end); cbn [negb].
      * apply follows_value. split; [reflexivity|]. cbn [ag_counters]. auto.
      * step (read_same s2 _ _ Ct). apply follows_print. apply follows_value. split; [reflexivity|]. eauto.
    + destruct IA as (e & ->). change (-1 <? 0)%Z with true. cbv iota. apply WD.
  - (* outside *)
    destruct (word_at line) as [[w r]|] eqn:WA.
    + destruct SW as (m' & Ew & O & LW & LR). rewrite Ew, store_short by lia. cbn [bind]. rewrite tbind_ok.
      destruct WM as (m1 & s1 & E & I1 & Cr & Cw & Lr & Lw). pose proof (Off _ _ _ _ _ Ew E).
      subst m'. step E. cbv iota. specialize (WS w r eq_refl). rewrite (at_start_text line (Some m1) r w) by (auto; lia). rewrite !tbind_done.
      step (starts_ok s1 _ w 5 (bs "start") Cw). destruct (strncaseeq 5 w (bs "start")); [|now apply Quiet].
      unfold c_at_offset. step (bytes_same (mret (plus (mkPtr W 0) m1)) s1 (mkPtr W m1) eq_refl). destruct r as [|c r].
      { step (load_end _ _ Cr). now apply Quiet. }
      destruct (load_head _ _ _ _ Cr) as (El & Nz). step El. rewrite Nz.
      destruct (text_in_memory s0 s1 p W P t k z m1 c r w I1 Cr Cw WS Lr) as (s2 & Et & I2 & Ct). step Et.
      step (read_same s2 _ _ Ct). apply follows_print. now apply Quiet.
    + rewrite SW. cbn [bind]. rewrite tbind_ok. step WM. step (starts_ok s _ [] 5 (bs "start") F). change (strncaseeq 5 [] (bs "start")) with false. cbv iota. now apply Quiet.
Qed.

(** ** The loop *)

Definition again_loop_done (s0 : store_t) (p : ptr) (t : table) (r : option again_state) (q : option ptr) (s' : store_t) : Prop :=
  (forall b, b < length (s_heap s0) -> s_words s' b = s_words s0 b) /\
  exists more, s_heap s' = s_heap s0 ++ more /\
  match r with
  | Some st => exists own, q = Some p /\ table_at s' p t (cset (ag_counters st)) own /\ (forall b, In b own -> length (s_heap s0) <= b) /\ live more = length own
  | None => q = None /\ live more = 0
  end.

Lemma again_loop_ok (R : heap -> N -> Prop) s0 p W P t z : forall ps contents fuel st m s,
  pieces contents ps -> length contents <= fuel -> below (ag_counters st) m -> (Z.of_nat (m + length contents) <= int_max)%Z ->
  @parsing (cset (ag_counters st)) (t_overwrites t) s0 s p W P t 0 z ->
  follows R (fun _ _ => False) (again_loop_done s0 p t) (again_loop fuel t contents st) (c_again_loop fuel contents p (mkPtr W 0) (mkPtr P 0) (ag_inside st) (ag_offset st) s).
Proof.
  induction ps as [|x ps IH]; intros contents fuel st m s Pc L Bl Lm I.
  - inversion Pc; subst. destruct (buffers_back _ _ _ _ _ _ _ _ I) as (own & more & s' & Eq & T & On & H & Ws & Lv & _).
    assert (X : again_loop_done s0 p t (Some st) (Some p) s').
    { split; [exact Ws|]. exists more. split; [exact H|]. exists own. splits; auto. lia. }
    destruct fuel; cbn [c_again_loop again_loop next_line]; rewrite Eq; now apply follows_value.
  - destruct (pieces_fgets _ _ _ Pc) as (rest & F & P' & E & NE). destruct (pieces_next _ _ _ Pc) as (rest' & Nx & _ & Lr & LP).
    assert (rest' = rest). { revert Nx. unfold next_line. change (TABLE_BUFFER - 1) with 1023. rewrite F. destruct contents; [discriminate|]. now intros [= <-]. } subst rest'.
    destruct fuel as [|fuel]; [rewrite E, app_length in L; lia|].
    destruct contents as [|c contents]; [destruct x; [cbn in NE; lia|discriminate]|].
    cbn [again_loop c_again_loop]. rewrite Nx.
    destruct (fgets_in_memory (s_heap s) W (c :: contents) x rest (parsing_W _ _ _ _ _ _ _ _ I) F) as (cells & Lc & Ef & Cw).
    step (bytes_done _ _ _ _ Ef).
    assert (I1 := parsing_set s0 s p W P t 0 z W cells I (or_introl eq_refl) Lc). set (s1 := mkStore (set_block (s_heap s) W (Some cells)) (s_words s)) in *.
    eapply follows_bind; [apply (@again_line_ok (t_overwrites t) R s0 s1 p W P t 0 z (cstr x) st m Bl); [lia|exact I1|exact Cw|exact LP]|].
    intros r r' s2 (-> & X). destruct r as [st'|]; cbn [option_map].
    + destruct X as (Bl' & I2). cbn [again_vars]. apply (IH rest fuel st' (S m) s2 P'); [lia|exact Bl'|lia|exact I2].
    + destruct X as (n & I2). destruct (all_back _ _ _ _ _ _ _ _ I2) as (more & s3 & Eq & H & Ws & Lv). rewrite Eq. apply follows_value.
      split; [exact Ws|]. exists more. splits; auto. lia.
Qed.

(** ** check_table_again *)

Lemma block_list_count (h : heap) ds rows : Forall2 (fun d r => string_in h d (r_data r)) ds rows -> Forall (fun r => (r_key r < 2 ^ 32)%N /\ (r_key r = 0%N <-> r_data r = None)) rows ->
  length (block_list ds) = length (row_keys rows).
Proof.
  intros F K. rewrite row_keys_count. induction F as [|d r ds rows S F IH]; [reflexivity|]. inversion K as [|? ? (_ & Z) K']; subst. specialize (IH K').
  change (d :: ds) with ([d] ++ ds). rewrite block_list_app, app_length, IH. unfold count_occ_rows. cbn [filter].
  destruct d as [d|], (r_data r) as [x|] eqn:Ex; try contradiction; destruct (N.eqb_spec (r_key r) 0) as [E|Ne]; cbn.
  all: try reflexivity.
  all: try (apply Z in E; discriminate). 
  all: exfalso; apply Ne, Z; reflexivity.
Qed.

Lemma own_count s p t c own : table_at s p t c own -> length own = 2 + (if t_default t then 1 else 0) + length (row_keys (t_rows t)).
Proof.
  intros (rp & ds & df & _ & _ & F & D & -> & _ & Ra). destruct Ra as (_ & _ & _ & _ & _ & K & _). cbn [length]. rewrite block_list_cons, app_length, (block_list_count _ _ _ F K).
  destruct df, (t_default t); try contradiction; reflexivity.
Qed.

Lemma again_size_ok used s : (Z.of_nat used + 256 <= int_max)%Z -> c_again_size (Z.of_nat used) s = done (Z.of_N (loader_size (N.of_nat used)), s).
Proof.
  intros L. rewrite loader_size_nat. unfold c_again_size, BUILTIN_TABLE_MULTIPLE. change (Z.of_N 256) with 256%Z.
  pose proof (Z.div_mod (Z.of_nat used) 256 ltac:(lia)) as DM. pose proof (Z.mod_pos_bound (Z.of_nat used) 256 ltac:(lia)) as MB.
  unfold int_sum. destruct (Z.leb_spec (Z.of_nat used / 256 + 1) int_max); [|lia]. rewrite wbind_ret.
  destruct (Z.leb_spec ((Z.of_nat used / 256 + 1) * 256) int_max); [|lia].
  unfold wret. do 2 f_equal. rewrite Nat2Z.inj_mul, Nat2Z.inj_add, Nat2Z.inj_div. reflexivity.
Qed.

Definition rechecked (s1 : store_t) (second : table_file) (t : table) (r : option (table * CheckTable.counters)) (q : option ptr) (s' : store_t) : Prop :=
  (forall b, b < length (s_heap s1) -> s_words s' b = s_words s1 b) /\
  exists more, s_heap s' = s_heap s1 ++ more /\
  match r with
  | Some (u, n) => exists p own, q = Some p /\ table_at s' p u (cset n) own /\ (forall b, In b own -> length (s_heap s1) <= b) /\ t_builtin u = false /\ live more = length own /\
      forall message, second <> Locked message
  | None => q = None /\ live more = match second with Locked _ => 2 + (if t_default t then 1 else 0) + length (row_keys (t_rows t)) | _ => 0 end
  end.

Theorem again_ok s p t n own size hash ds second : limited al -> sizeable second ->
  table_at s p t (cset n) own -> tallied size hash 0 (entries ds) t -> (Z.of_nat size + 256 < int_max)%Z ->
  follows (fun h k => exists more, h = s_heap s ++ more /\ heap_size more + N.to_nat k <= copy_room t (Z.of_N (loader_size (N.of_nat (t_used t)))) + 2048) (fun _ _ => False) (rechecked s second t) (check_table_again second (Some (t, n))) (c_check_again second (Some p) s).
Proof.
  intros Lim Sz T Ta Ls. unfold c_check_again, check_table_again. pose proof (ta_wf _ _ _ _ _ Ta) as Wf. pose proof (wf_used _ Wf) as Us. rewrite (ta_size _ _ _ _ _ Ta) in Us.
  assert (Ow : t_overwrites t <= t_used t). { rewrite (ta_used _ _ _ _ _ Ta). pose proof (ta_over _ _ _ _ _ Ta). lia. }
  set (m := Z.of_N (loader_size (N.of_nat (t_used t)))).
  assert (Mm : (Z.of_nat (Z.to_nat m) = m /\ 0 < m <= Z.of_nat (t_used t) + 256)%Z).
  { unfold m. rewrite loader_size_nat. pose proof (Nat.div_mod (t_used t) 256 ltac:(lia)). pose proof (Nat.mod_upper_bound (t_used t) 256 ltac:(lia)). lia. }
  assert (Rs : ends (fun h k => exists more, h = s_heap s ++ more /\ heap_size more + N.to_nat k <= copy_room t m)
       (fun q s' => q = mkPtr (length (s_heap s)) 0 /\ copying s s' p t (cset n) own q (table_resize t m true) (copy_room t m))
       ((let$ p := deref (Some p) in let$ used := int_at p T_used in let$ size := c_again_size used in c_table_resize (Some p) size 1) s)).
  { step (eq_refl : deref (Some p) s = done (p, s)). pose proof T as (rp & dd & df & CP & _). step (int_at_ok s _ _ 1 _ CP eq_refl).
    rewrite (wbind_done _ _ _ _ _ (again_size_ok (t_used t) s ltac:(lia))). fold m. apply (resize_in_memory s p t (cset n) own m true Lim T Wf); lia. }
  destruct (resize_tallied size hash 0 (entries ds) t (Z.to_nat m) true Ta) as (u & Eu & Tu & Du & Gu); [lia| |].
  { pose proof (ta_over _ _ _ _ _ Ta) as O. rewrite <- (ta_used _ _ _ _ _ Ta) in O.
    assert (m = Z.of_nat ((t_used t / 256 + 1) * 256)) by apply loader_size_nat. pose proof (Nat.div_mod (t_used t) 256 ltac:(lia)). pose proof (Nat.mod_upper_bound (t_used t) 256 ltac:(lia)). lia. }
  replace (Z.of_nat (Z.to_nat m)) with m in Eu by (symmetry; apply Mm).
  assert (Kr : length (row_keys (t_rows u)) = length (row_keys (t_rows t))).
  { destruct (keys_of_row_keys t Wf) as (N1 & J1), (keys_of_row_keys u (ta_wf _ _ _ _ _ Tu)) as (N2 & J2).
    apply Nat.le_antisymm; apply NoDup_incl_length; auto; intros k J; [apply J1; rewrite <- Gu; now apply J2|apply J2; rewrite Gu; now apply J1]. }
  destruct second as [|message|contents].
  - apply follows_value. split; [auto|]. exists []. rewrite app_nil_r. auto.
  - eapply follows_ends; [exact Rs|intros h k (more & -> & Hs); exists more; split; [reflexivity|lia]|]. intros q s' (-> & own' & more & _ & Tq & H & Ws & On & Lv & _). apply follows_print. apply follows_value.
    split; [exact Ws|]. exists more. splits; auto. rewrite Lv, (own_count _ _ _ _ _ Tq). rewrite Eu, Du, Kr. reflexivity.
  - rewrite Eu in *. eapply follows_ends; [exact Rs|intros h k (more & -> & Hs); exists more; split; [reflexivity|lia]|]. intros q s' (-> & own' & more & _ & Tq & H & Ws & On & Lv & Eo & Szm).
    assert (Nb : t_builtin u = false). { rewrite <- Eu. unfold table_resize. now rewrite put_rows_builtin. }
    apply (new_buffers s s' _ u fresh_counters (t_overwrites u) own' more _ _ _ (fun work parsed => _) Tq).
    + exact (ta_wf _ _ _ _ _ Tu).
    + exact Nb.
    + lia.
    + rewrite (ta_size _ _ _ _ _ Tu). lia.
    + exact H.
    + exact On.
    + exact Ws.
    + intros h k more' -> Hs. exists (more ++ more'). split; [reflexivity|]. rewrite size_app. lia.
    + intros s3 W P I0. specialize (I0 0 ltac:(lia)).
      destruct (pieces_total (length contents) contents (le_n _)) as (ps & Pc).
      eapply CReviewProofs.follows_map; [apply (again_loop_ok _ s _ W P u (heap_size more + 2048) ps contents (length contents) (mkAgain false None no_counters) 0 s3 Pc (le_n _))|].
      * unfold below. cbn. lia.
      * cbn [sizeable] in Sz. lia.
      * exact I0.
      * intros b a s4 (Ws4 & more4 & H4 & X). split; [exact Ws4|]. exists more4. split; [exact H4|]. destruct b as [st|]; cbn [option_map]; [|exact X].
        destruct X as (own4 & -> & T4 & On4 & Lv4). eexists _, own4. splits; eauto. discriminate.
Qed.

End check.
