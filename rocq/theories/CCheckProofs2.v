(** * Proofs about check-table in memory: the first time *)

From Verif Require Import Base BaseFacts Stdio StdioFacts Table TableSpec TableProofs Prog ParseTable ParseTableSpec ParseTableProofs TableFileSpec TableFileProofs
  GenBuiltin GenSpec GenProofs Escape EscapeSpec EscapeProofs MainSpec CheckTable CheckSpec CheckProofs
  Warnings WarningsProofs Startup StartProofs4 Mem MemSpec MemFacts CFiltersProofs Words WordsSpec WordsFacts CTable CTableProofs CTableProofs2 TablesSpec CTableProofs3
  CParseTable LoadSpec CParseTableProofs CParseTableProofs2 LinkedSpec CConfigProofs5 CConfigProofs7 CCheck CCheckProofs.

Local Open Scope nat_scope.

(** ** Tables *)

Lemma tallied_replacing size hash ow h t : tallied size hash ow h t -> t_overwrites t = ow + replacing h.
Proof.
  intros T. destruct (tallied_keys _ _ _ _ _ T) as (ND & I). pose proof (ta_over _ _ _ _ _ T) as O.
  assert (L : length (row_keys (t_rows t)) = length (nodup N.eq_dec (map fst h))).
  { apply Nat.le_antisymm; apply NoDup_incl_length; auto using NoDup_nodup; intros k J; [apply nodup_In, I, J|apply I; now apply nodup_In in J]. }
  assert (L2 : length (nodup N.eq_dec (map fst h)) <= length h).
  { rewrite <- (map_length fst h). apply NoDup_incl_length; [apply NoDup_nodup|]. intros k J. now apply nodup_In in J. }
  unfold replacing. lia.
Qed.

Lemma effects_accept ds t t' : wf t -> effects ds t = Some t' -> ~ In 0%N (map fst (entries ds)) /\ length (entries ds) <= length (t_rows t) - t_used t.
Proof.
  intros W E. pose proof (effects_reject ds t W) as X. split.
  - intros J. rewrite (proj2 X (or_introl J)) in E. discriminate.
  - destruct (Nat.le_gt_cases (length (entries ds)) (length (t_rows t) - t_used t)) as [|G]; [assumption|]. rewrite (proj2 X (or_intror G)) in E. discriminate.
Qed.

Lemma effects_end before : forall d t t', effects before t = Some t' -> effect d t' = None -> effects (before ++ [d]) t = None.
Proof.
  induction before as [|e before IH]; intros d t t' E F; cbn [app effects] in *; [injection E as <-; now rewrite F|].
  destruct (effect e t); [eauto|discriminate].
Qed.

(** The table check_table starts with. *)
Definition start_with (n : Z) (hash : bool) : table :=
  let t := table_init n in mkTable (t_rows t) (t_used t) (t_maxdata t) (t_default t) (t_overwrites t) hash (t_builtin t) (t_maxkey t).

Lemma accepted_tally n hash ds t : effects ds (start_with n hash) = Some t ->
  tallied (new_size n) hash 0 (entries ds) t /\ t_default t = default_of None ds /\ ~ In 0%N (map fst (entries ds)) /\ length (entries ds) <= new_size n.
Proof.
  intros E. pose proof (set_hash_tallied n hash) as T. cbv zeta in T. fold (start_with n hash) in T.
  destruct (effects_accept ds _ _ (ta_wf _ _ _ _ _ T) E) as (Z & L). rewrite (ta_size _ _ _ _ _ T), (ta_used _ _ _ _ _ T), Nat.sub_0_r in L.
  destruct (effects_tallied _ _ _ ds [] _ T Z) as (t' & E' & T' & D); [exact L|]. rewrite E in E'. injection E' as <-. auto.
Qed.

Lemma rejected_tally n hash before t c x : effects before (start_with n hash) = Some t -> effect (Entry c x) t = None ->
  t_overwrites t = replacing (entries before) /\ ~ In 0%N (map fst (entries before)) /\ length (entries before) <= new_size n /\ (c = 0%N \/ length (entries before) = new_size n).
Proof.
  intros E F. destruct (accepted_tally _ _ _ _ E) as (T & _ & Z & L). splits; auto; [exact (tallied_replacing _ _ _ _ _ T)|].
  destruct (N.eq_dec c 0) as [->|Nz]; [now left|right]. destruct (Nat.eq_dec (length (entries before)) (new_size n)) as [|Ne]; [assumption|].
  destruct (tallied_put _ _ _ _ _ c x T Nz) as (t' & off & P & _); [lia|]. cbn [effect] in F. now rewrite P in F.
Qed.

Section check.

Context {al : allocator}.

Lemma hash_in_memory s p t c own b : table_at s p t c own -> t_hash t = true ->
  exists s', assign p T_use_hash (Int (if b : bool then 1 else 0)) s = done (tt, s') /\
    table_at s' p (mkTable (t_rows t) (t_used t) (t_maxdata t) (t_default t) (t_overwrites t) b (t_builtin t) (t_maxkey t)) c own /\
    s_heap s' = s_heap s /\ same_but own s s'.
Proof.
  intros (rp & ds & df & CP & CR & F & D & Eo & ND & Ra) _.
  assert (Dist : p_block rp <> p_block p).
  { rewrite Eo in ND. apply NoDup_cons_iff in ND as (X & _). intros E. apply X. rewrite E. now left. }
  eexists. splits.
  - apply (assign_ok s p _ 9 _ CP). cbn. lia.
  - exists rp, ds, df. splits; auto.
    + exact (assigned_content s p _ 9 _ (Num (if b then 1 else 0)) CP (or_introl eq_refl)).
    + now apply assigned_other.
  - reflexivity.
  - intros x Nx. cbn [assigned s_words]. apply update_other. intros ->. apply Nx. rewrite Eo. now left.
Qed.

(** ** Giving back *)

Lemma buffers_back {cn w0} s0 s p W P t k z : @parsing cn w0 s0 s p W P t k z -> exists own more s',
  (forall A (m : wmem A), (let$ _ := bytes (free (mkPtr W 0)) in let$ _ := bytes (free (mkPtr P 0)) in m) s = m s') /\
  table_at s' p t cn own /\ (forall b, In b own -> length (s_heap s0) <= b) /\ s_heap s' = s_heap s0 ++ more /\
  (forall b, b < length (s_heap s0) -> s_words s' b = s_words s0 b) /\ live more + w0 = length own + t_overwrites t + k /\ heap_size more + 2048 = z.
Proof.
  intros (own & more & T & Wf & Nb & Ow & Ln & H & On & LW & LP & D & (cw & EW & LW') & (cp & EP & LP') & Ws & Lv & Hz).
  destruct (drop_buffers s W P cw cp EW EP D (wret tt)) as (h' & _ & Eh & Lh & Sh).
  destruct (free_all_new [W; P] (s_heap s0) more) as (more' & Em); [intros b [<-|[<-|[]]]; auto|].
  rewrite <- H, <- Eh in Em. exists own, more', (mkStore h' (s_words s)). splits; auto.
  - intros A m. destruct (drop_buffers s W P cw cp EW EP D m) as (h2 & E & -> & _). now rewrite E, Eh.
  - apply (table_at_same s); [|exact T]. intros b Ib. cbn [s_heap s_words]. split; [|reflexivity]. rewrite Eh. apply free_all_other. intros [<-|[<-|[]]]; apply On in Ib; tauto.
  - intros b Ib. now apply On.
  - rewrite Em, H, !live_app in Lh. lia.
  - rewrite Em, H, !size_app, LW', LP' in Sh. unfold TABLE_BUFFER in Sh. lia.
Qed.

Lemma all_back {cn w0} s0 s p W P t k z : @parsing cn w0 s0 s p W P t k z -> exists more s',
  (forall A (m : wmem A), (let$ _ := c_table_free (Some p) in let$ _ := bytes (free (mkPtr W 0)) in let$ _ := bytes (free (mkPtr P 0)) in m) s = m s') /\
  s_heap s' = s_heap s0 ++ more /\
  (forall b, b < length (s_heap s0) -> s_words s' b = s_words s0 b) /\ live more + w0 = t_overwrites t + k.
Proof.
  intros (own & more & T & Wf & Nb & Ow & Ln & H & On & LW & LP & D & (cw & EW & _) & (cp & EP & _) & Ws & Lv & Hz).
  destruct (free_in_memory s p t cn own T Nb) as (h1 & Fr & Wo & Lf).
  assert (EW1 : nth_error h1 W = Some (Some cw)).
  { destruct Wo as (_ & Wo). rewrite Wo. destruct (in_dec Nat.eq_dec W own) as [I|_]; [apply On in I; tauto|exact EW]. }
  assert (EP1 : nth_error h1 P = Some (Some cp)).
  { destruct Wo as (_ & Wo). rewrite Wo. destruct (in_dec Nat.eq_dec P own) as [I|_]; [apply On in I; tauto|exact EP]. }
  destruct (drop_buffers (mkStore h1 (s_words s)) W P cw cp EW1 EP1 D (wret tt)) as (h2 & _ & Eh & Lh & _). cbn [s_heap s_words] in *.
  rewrite H in Wo. destruct (without_new own (s_heap s0) more h1 (fun b I => proj1 (On b I)) Wo) as (more1 & E1').
  destruct (free_all_new [W; P] (s_heap s0) more1) as (more2 & Em); [intros b [<-|[<-|[]]]; auto|]. rewrite <- E1', <- Eh in Em.
  exists more2, (mkStore h2 (s_words s)). splits; auto.
  - intros A m. step Fr. destruct (drop_buffers (mkStore h1 (s_words s)) W P cw cp EW1 EP1 D m) as (h3 & E & -> & _). now rewrite E, Eh.
  - rewrite Em, E1' in Lh. rewrite E1', H in Lf. rewrite !live_app in *. lia.
Qed.

(** ** The loop *)

Definition loop_done (s0 : store_t) (p : ptr) (W P : nat) (t : table) (k z : nat) (ds : list directive) (r : option ck_state) (r' : option ck_vars) (s' : store_t) : Prop :=
  r' = option_map vars_of r /\
  match r with
  | Some st => effects ds t = Some (ck_table st) /\ moderate st /\
      @parsing (cset (ck_counters st)) 0 s0 s' p W P (ck_table st) (k + lost_from (has_default t) ds) (z + text_bytes ds)
  | None => (forall b, b < length (s_heap s0) -> s_words s' b = s_words s0 b) /\
      exists more, s_heap s' = s_heap s0 ++ more /\
      exists before c x after t1, ds = before ++ Entry c x :: after /\ effects before t = Some t1 /\ effect (Entry c x) t1 = None /\
        live more = t_overwrites t1 + k + lost_from (has_default t) before
  end.

Lemma check_loop_ok s0 p W P : forall ps j ds contents fuel st k z s,
  file_means [] (ck_inside st) ps j ds -> pieces contents ps -> length contents <= fuel -> moderate st -> @parsing (cset (ck_counters st)) 0 s0 s p W P (ck_table st) k z ->
  follows (fun h n => exists more, h = s_heap s0 ++ more /\ heap_size more + N.to_nat n <= z + text_bytes ds) (fun _ _ => False)
    (loop_done s0 p W P (ck_table st) k z ds) (check_loop fuel contents st) (c_check_loop fuel contents p (mkPtr W 0) (mkPtr P 0) (vars_of st) s).
Proof.
  induction ps as [|x ps IH]; intros j ds contents fuel st k z s M Pc L Mo I.
  - inversion M; subst. inversion Pc; subst.
    assert (X : loop_done s0 p W P (ck_table st) k z [] (Some st) (Some (vars_of st)) s).
    { split; [reflexivity|]. cbn [effects lost_from text_bytes map list_sum fold_right]. rewrite !Nat.add_0_r. auto. }
    destruct fuel; now apply follows_value.
  - inversion M as [|i' p' line j' d ps' k' ds' V M1 M2]; subst.
    destruct (pieces_fgets _ _ _ Pc) as (rest & F & P' & E & NE). destruct (pieces_next _ _ _ Pc) as (rest' & Nx & _ & _ & LP).
    assert (rest' = rest). { revert Nx. unfold next_line. change (TABLE_BUFFER - 1) with 1023. rewrite F. destruct contents; [discriminate|]. now intros [= <-]. } subst rest'.
    destruct fuel as [|fuel]; [rewrite E, app_length in L; lia|].
    destruct contents as [|c contents]; [destruct x; [cbn in NE; lia|discriminate]|].
    apply visible_iff in V. subst line. cbn [check_loop c_check_loop]. rewrite Nx.
    destruct (fgets_in_memory (s_heap s) W (c :: contents) x rest (parsing_W _ _ _ _ _ _ _ _ I) F) as (cells & Lc & Ef & Cw).
    step (bytes_done _ _ _ _ Ef).
    assert (I1 := parsing_set s0 s p W P (ck_table st) k z W cells I (or_introl eq_refl) Lc). set (s1 := mkStore (set_block (s_heap s) W (Some cells)) (s_words s)) in *.
    eapply follows_bind.
    { eapply follows_weaken; [exact (check_line_ok s0 s1 p W P st k z (cstr x) j' d Mo I1 Cw LP M1)| |easy|intros b a s2 X; exact X].
      intros h n (more & -> & Hs). exists more. split; [reflexivity|]. rewrite (text_bytes_cons d ds'). lia. }
    intros r r' s2 (-> & X). destruct r as [st'|]; cbn [option_map].
    + destruct X as (EF & Ej & Mo' & I2). rewrite <- Ej in M2. eapply follows_weaken.
      * apply (IH j ds' rest fuel st' (k + dropped d (ck_table st)) (z + text_bytes [d]) s2 M2 P'); [rewrite E, app_length in L; lia|exact Mo'|exact I2].
      * intros h n (more & -> & Hs). exists more. split; [reflexivity|]. rewrite (text_bytes_cons d ds'). lia.
      * easy.
      * intros b a s' (-> & Y). split; [reflexivity|]. destruct b as [st2|].
        -- destruct Y as (E2 & Mo2 & I3). cbn [effects]. rewrite EF. splits; auto. rewrite (lost_step _ _ _ _ EF), (text_bytes_cons d ds'), !Nat.add_assoc. exact I3.
        -- destruct Y as (Ws & more & H & before & c' & x' & after & t1 & -> & Ef' & Er & Lv). split; [exact Ws|]. exists more. split; [exact H|]. exists (d :: before), c', x', after, t1.
           splits; auto; [cbn [effects]; now rewrite EF|]. rewrite (lost_step _ _ _ _ EF). lia.
    + destruct X as (EF & (c' & x' & ->) & I2). destruct (all_back _ _ _ _ _ _ _ _ I2) as (more & s3 & Eq & H & Ws & Lv). rewrite Eq. apply follows_value.
      split; [reflexivity|]. split; [exact Ws|]. exists more. split; [exact H|]. exists [], c', x', ds', (ck_table st). splits; auto. cbn [lost_from]. lia.
Qed.

(** ** Texts *)

Lemma texts_set rows i r : texts_room (set_row rows i r) <= texts_room rows + text_room (r_data r).
Proof.
  revert i. induction rows as [|x rows IH]; intros [|i]; cbn [set_row]; rewrite ?texts_cons; try (unfold texts_room; cbn; lia). specialize (IH i). lia.
Qed.

Lemma texts_empty n : texts_room (repeat empty_row n) = 0.
Proof. induction n as [|n IH]; [reflexivity|]. cbn [repeat]. now rewrite texts_cons, IH. Qed.

Lemma effects_room ds : forall t t', effects ds t = Some t' ->
  texts_room (t_rows t') + text_room (t_default t') <= texts_room (t_rows t) + text_room (t_default t) + text_bytes ds.
Proof.
  induction ds as [|d ds IH]; intros t t' E; cbn [effects] in E; [injection E as <-; lia|].
  destruct (effect d t) as [t1|] eqn:E1; [|discriminate]. specialize (IH _ _ E). rewrite (text_bytes_cons d ds).
  assert (texts_room (t_rows t1) + text_room (t_default t1) <= texts_room (t_rows t) + text_room (t_default t) + text_bytes [d]); [|lia]. clear E IH.
  destruct d as [c x|x|]; cbn [effect] in E1; cbn [text_bytes map list_sum fold_right].
  - revert E1. unfold table_put. destruct (c =? 0)%N; [discriminate|]. destruct (t_length t =? t_used t); [discriminate|]. destruct (put_offset t c) as [i|]; [|discriminate].
    cbn [snd fst]. intros [= <-]. cbn [t_rows t_default].
    match goal with |- context[texts_room (?f (t_rows t) i ?r)] => pose proof (texts_set (t_rows t) i r) as X end. cbn [text_room r_data] in X. lia.
  - injection E1 as <-. cbn [t_rows t_default set_default]. destruct x; cbn [text_room]; lia.
  - injection E1 as <-. lia.
Qed.

(** ** check_table *)

Definition checked (s0 : store_t) (size : nat) (hash : bool) (ds : list directive) (r : option (table * CheckTable.counters)) (q : option ptr) (s' : store_t) : Prop :=
  (forall b, b < length (s_heap s0) -> s_words s' b = s_words s0 b) /\
  exists more, s_heap s' = s_heap s0 ++ more /\
  match r with
  | Some (t, n) => exists p own, q = Some p /\ table_at s' p t (cset n) own /\ (forall b, In b own -> length (s_heap s0) <= b) /\ t_builtin t = false /\
      tallied size hash 0 (entries ds) t /\ t_default t = default_of None ds /\ below n (t_used t) /\ ~ In 0%N (map fst (entries ds)) /\ length (entries ds) <= size /\
      live more = length own + replacing (entries ds) + defaults_lost ds /\ heap_size more = 64 + 16 * size + text_bytes ds /\
      texts_room (t_rows t) + text_room (t_default t) <= text_bytes ds
  | None => q = None /\ exists before c x after, ds = before ++ Entry c x :: after /\ ~ In 0%N (map fst (entries before)) /\ length (entries before) <= size /\
      (c = 0%N \/ length (entries before) = size) /\ live more = replacing (entries before) + defaults_lost before
  end.

Lemma malloc_ok (s' : store_t) n : ends (fun h k => h = s_heap s' /\ k = n) (fun p s'' => p = mkPtr (length (s_heap s')) 0 /\ s'' = grow s' [blank n]) (bytes (malloc n) s').
Proof. unfold bytes, malloc. destruct (refusal_of (s_heap s') n) as [message|] eqn:E; [cbn; econstructor 2; eauto|]. rewrite tbind_done. constructor. auto. Qed.

Lemma new_buffers s s1 p t cn w0 own more (R : heap -> N -> Prop) {A B} (Q : B -> A -> store_t -> Prop) pure (k : ptr -> ptr -> wmem A) :
  table_at s1 p t cn own -> wf t -> t_builtin t = false -> t_overwrites t <= t_used t + w0 -> (Z.of_nat (length (t_rows t)) < int_max)%Z ->
  s_heap s1 = s_heap s ++ more -> (forall b, In b own -> length (s_heap s) <= b) -> (forall b, b < length (s_heap s) -> s_words s1 b = s_words s b) ->
  (forall h n more', h = s_heap s ++ more ++ more' -> heap_size more' + N.to_nat n <= 2048 -> R h n) ->
  (forall s3 W P, (forall j, live more + w0 = length own + t_overwrites t + j -> @parsing cn w0 s s3 p W P t j (heap_size more + 2048)) -> follows R (fun _ _ => False) Q pure (k (mkPtr W 0) (mkPtr P 0) s3)) ->
  follows R (fun _ _ => False) Q pure ((let$ work := bytes (malloc (N.of_nat TABLE_BUFFER)) in let$ parsed := bytes (malloc (N.of_nat TABLE_BUFFER)) in k work parsed) s1).
Proof.
  intros T Wf Nb Ow Ln H On Ws HR K. eapply follows_ends; [apply malloc_ok| |].
  { intros h n (-> & ->). apply (HR _ _ []); [now rewrite app_nil_r|]. change (heap_size []) with 0. unfold TABLE_BUFFER. lia. }
  intros w s2 (-> & E2). set (B0 := blank (N.of_nat TABLE_BUFFER)) in *.
  assert (H2 : s_heap s2 = s_heap s ++ more ++ [B0]) by (subst s2; cbn [grow s_heap]; rewrite H, <- app_assoc; reflexivity).
  assert (S0 : heap_size [B0] = 1024) by exact (sizes_of [N.of_nat TABLE_BUFFER] [B0] eq_refl).
  eapply follows_ends; [apply malloc_ok| |].
  { intros h n (-> & ->). apply (HR _ _ [B0]); [exact H2|]. rewrite S0. unfold TABLE_BUFFER. lia. }
  intros w' s3 (-> & E3).
  assert (H3 : s_heap s3 = s_heap s ++ (more ++ [B0; B0])) by (subst s3; cbn [grow s_heap]; rewrite H2, <- !app_assoc; reflexivity).
  assert (L1 : length (s_heap s1) = length (s_heap s) + length more) by (rewrite H, app_length; reflexivity).
  assert (L2 : length (s_heap s2) = length (s_heap s) + (length more + 1)) by (rewrite H2, !app_length; reflexivity).
  apply K. intros j Lv. exists own, (more ++ [B0; B0]). splits; auto; try lia.
  - apply (table_at_same s1); [|exact T]. intros b Ib. split; [|subst s3 s2; reflexivity]. rewrite H3, app_assoc, <- H. apply nth_error_app1. exact (own_old _ _ _ _ _ _ T Ib).
  - intros b Ib. pose proof (own_old _ _ _ _ _ _ T Ib). splits; [now apply On|lia|lia].
  - exists (repeat None (N.to_nat (N.of_nat TABLE_BUFFER))). rewrite H3, L1, app_assoc. rewrite nth_error_app2 by (rewrite app_length; lia). rewrite app_length. replace (_ - _) with 0 by lia. rewrite repeat_length, Nat2N.id. auto.
  - exists (repeat None (N.to_nat (N.of_nat TABLE_BUFFER))). rewrite H3, L2, app_assoc. rewrite nth_error_app2 by (rewrite app_length; lia). rewrite app_length. replace (_ - _) with 1 by lia. rewrite repeat_length, Nat2N.id. auto.
  - intros b Lb. subst s3 s2. now apply Ws.
  - rewrite live_app. unfold live at 2. cbn [filter is_live length B0 blank]. lia.
  - rewrite size_app. now f_equal.
Qed.

Theorem check_table_ok s contents ds hash denied : file_says [] contents ds -> (Z.of_nat (room contents) < int_max)%Z ->
  follows (fun h n => exists more, h = s_heap s ++ more /\ heap_size more + N.to_nat n <= loading_size contents ds) (fun _ _ => False)
    (checked s (room contents) hash ds) (check_table (Readable contents) hash) (c_check_table (Readable contents) denied (if hash then 1 else 0)%Z s).
Proof.
  intros (ps & j & Pc & M) Ln. unfold c_check_table, check_table. set (n := Z.of_nat (table_capacity (length contents))).
  assert (Rm : new_size n = room contents) by apply table_capacity_room.
  assert (Hn : (n < int_max)%Z). { rewrite <- Rm in Ln. unfold new_size in Ln. destruct (Z.leb_spec n 0); lia. }
  cbv zeta. fold (start_with n hash).
  eapply follows_ends; [apply (init_in_memory s n ltac:(lia))| |].
  { intros h k [(-> & ->)|(-> & ->)]; [exists []; rewrite app_nil_r|exists [blank 64]]; (split; [reflexivity|]); unfold loading_size; rewrite <- Rm; [change (heap_size []) with 0|change (heap_size [blank 64]) with 64]; lia. }
  intros p s1 (-> & T & H1 & Sb & _).
  destruct (hash_in_memory s1 _ _ _ _ hash T) as (s1' & Eh & T' & Hh & Sh); [reflexivity|]. step Eh. fold (start_with n hash) in T'.
  set (m0 := [blank 64; blank (16 * N.of_nat (new_size n))]) in *. rewrite <- Hh in H1.
  assert (Z0 : heap_size m0 = 64 + 16 * room contents).
  { rewrite <- Rm. unfold m0. rewrite (sizes_of [64; 16 * N.of_nat (new_size n)]%N [blank 64; blank (16 * N.of_nat (new_size n))] eq_refl). cbn [map list_sum fold_right]. lia. }
  pose proof (set_hash_tallied n hash) as Tal. cbv zeta in Tal. fold (start_with n hash) in Tal.
  apply (new_buffers s s1' _ (start_with n hash) fresh_counters 0 _ m0 _ _ _ (fun work parsed => _) T').
  - exact (ta_wf _ _ _ _ _ Tal).
  - reflexivity.
  - cbn. lia.
  - rewrite (ta_size _ _ _ _ _ Tal), Rm. exact Ln.
  - exact H1.
  - intros b [<-|[<-|[]]]; lia.
  - intros b Lb. rewrite Sh, Sb; auto; intros [<-|[<-|[]]]; lia.
  - intros h k more' -> Hs. exists (m0 ++ more'). split; [reflexivity|]. rewrite size_app, Z0. unfold loading_size. lia.
  - intros s3 W P I0.
    assert (I : @parsing (cset (ck_counters (mkCk false None (start_with n hash) no_counters 0 1))) 0 s s3 (mkPtr (length (s_heap s)) 0) W P (ck_table (mkCk false None (start_with n hash) no_counters 0 1)) 0 (64 + 16 * room contents + 2048)).
    { rewrite <- Z0. apply I0. reflexivity. }
    eapply follows_bind.
    { eapply follows_weaken; [apply (check_loop_ok s _ W P ps j ds contents (length contents) (mkCk false None (start_with n hash) no_counters 0 1) 0 (64 + 16 * room contents + 2048) s3 M Pc (le_n _)); [|exact I]|auto|auto|intros b a s' X; exact X].
      unfold moderate, below. cbn. lia. }
    intros r r' s4 (-> & X). cbn [ck_table] in X. change (has_default (start_with n hash)) with false in X. destruct r as [st|]; cbn [option_map].
    + destruct X as (Ef & (Bl & Ll) & I2). destruct (accepted_tally _ _ _ _ Ef) as (T2 & D2 & Z2 & L2). pose proof I2 as (own2 & more2 & T3 & _ & Nb3 & _).
      pose proof T3 as (rp & dd & df & CP & _ & _ & _ & _ & _ & Ra).
      step (int_at_ok s4 _ _ 2 _ CP eq_refl). rewrite <- Z_nat_N, Nat2Z.id. unfold vars_of. cbn [v_longest]. rewrite <- Z_nat_N, Nat2Z.id.
      replace (Z.of_nat (t_maxdata (ck_table st)) =? Z.of_nat (ck_longest st))%Z with (t_maxdata (ck_table st) =? ck_longest st)
        by (destruct (Nat.eqb_spec (t_maxdata (ck_table st)) (ck_longest st)), (Z.eqb_spec (Z.of_nat (t_maxdata (ck_table st))) (Z.of_nat (ck_longest st))); auto; lia).
      assert (Fin : follows (fun h n => exists more, h = s_heap s ++ more /\ heap_size more + N.to_nat n <= loading_size contents ds) (fun _ _ => False)
        (checked s (room contents) hash ds) (done (Some (ck_table st, ck_counters st)))
        ((let$ _ := bytes (free (mkPtr W 0)) in let$ _ := bytes (free (mkPtr P 0)) in wret (Some (mkPtr (length (s_heap s)) 0))) s4)).
      { destruct (buffers_back _ _ _ _ _ _ _ _ I2) as (own & more & s5 & Eq & T5 & On & H5 & Ws5 & Lv & Sz5). rewrite Eq. apply follows_value. split; [exact Ws5|].
        exists more. split; [exact H5|]. exists (mkPtr (length (s_heap s)) 0), own. rewrite Rm in T2, L2. splits; auto; [|lia|].
        - rewrite (tallied_replacing _ _ _ _ _ T2), lost_from_eq in Lv. cbn [andb] in Lv. lia.
        - pose proof (effects_room _ _ _ Ef) as Er. unfold start_with in Er. cbn [t_rows t_default table_init] in Er.
          rewrite texts_empty in Er. cbn [text_room] in Er. lia. }
      destruct (_ =? _); [rewrite wbind_ret, tbind_done; exact Fin|apply follows_print; exact Fin].
    + destruct X as (Ws & more & H & before & c & x & after & t1 & Ed & Ef & Er & Lv). apply follows_value. split; [exact Ws|]. exists more. split; [exact H|]. split; [reflexivity|].
      destruct (rejected_tally _ _ _ _ _ _ Ef Er) as (Eo & Zb & Lb & Fc). rewrite Rm in *. exists before, c, x, after. splits; auto. rewrite lost_from_eq in Lv. cbn [andb] in Lv. lia.
Qed.

End check.
