(** * Proofs about the generator of built-in tables in memory: the program *)

From Verif Require Import Base BaseFacts Stdio StdioFacts Table TableSpec TableProofs Prog ParseTable ParseTableSpec ParseTableProofs TableFileSpec TableFileProofs
  Options GenBuiltin GenSpec GenProofs Escape EscapeSpec EscapeProofs MainSpec CheckTable CheckSpec CheckProofs CheckProofs2 GenMain
  Warnings WarningsProofs Startup StartProofs3 StartProofs4 Mem MemSpec MemFacts CFileProofs CFiltersProofs Words WordsSpec WordsFacts CTable CTableProofs CTableProofs2 TablesSpec CTableProofs3
  CParseTable LoadSpec CParseTableProofs CParseTableProofs2 LinkedSpec CConfigProofs5 CConfigProofs7 CCheck CCheckProofs CCheckProofs2 CCheckSpec CCheckProofs3 CCheckProofs4
  CGenerate CGenerateSpec CGenerateProofs.
From Verif Require Import COptionsProofs.
From Verif Require CReviewProofs.

Local Open Scope nat_scope.

(** ** Lists *)

Definition escape_room (rows : list row) : nat := list_sum (map (fun r => match r_data r with Some d => 2 * length d + 1 | None => 0 end) rows).

Lemma escape_room_cons r rows : escape_room (r :: rows) = match r_data r with Some d => 2 * length d + 1 | None => 0 end + escape_room rows.
Proof. reflexivity. Qed.

Lemma escape_room_texts rows : escape_room rows <= 2 * texts_room rows.
Proof. induction rows as [|r rows IH]; [reflexivity|]. rewrite escape_room_cons, texts_cons. unfold text_room. destruct (r_data r); lia. Qed.

Lemma put_room t k d : texts_room (t_rows (fst (table_put t k d))) <= texts_room (t_rows t) + text_room (Some d).
Proof.
  unfold table_put. destruct (k =? 0)%N; [cbn [fst]; lia|]. destruct (t_length t =? t_used t); [cbn [fst]; lia|]. destruct (put_offset t k) as [i|]; [|cbn [fst]; lia].
  cbn [fst t_rows]. match goal with |- context[texts_room (set_row _ i ?r)] => exact (texts_set (t_rows t) i r) end.
Qed.

Lemma put_rows_room rows : forall t, texts_room (t_rows (put_rows t rows)) <= texts_room (t_rows t) + texts_room rows.
Proof.
  induction rows as [|r rows IH]; intros t; cbn [put_rows]; [lia|]. rewrite texts_cons. eapply Nat.le_trans; [apply IH|].
  destruct (r_data r) as [d|]; [|lia]. destruct (0 <? r_key r)%N; [|lia]. pose proof (put_room t (r_key r) d). lia.
Qed.

Lemma resize_room t n h : texts_room (t_rows (table_resize t n h)) <= texts_room (t_rows t).
Proof.
  unfold table_resize. eapply Nat.le_trans; [apply put_rows_room|]. cbn [t_rows]. rewrite table_init_eq. cbn [t_rows]. rewrite texts_empty. lia.
Qed.

Lemma row_keys_cons r rows : row_keys (r :: rows) = if (r_key r =? 0)%N then row_keys rows else r_key r :: row_keys rows.
Proof. unfold row_keys. cbn [filter]. destruct (r_key r =? 0)%N; reflexivity. Qed.

(** A file that is loaded says what is in the table. *)
Lemma saying_effects ds : forall t t', snd (StartProofs4.saying ds t) = Some t' -> effects ds t = Some t'.
Proof.
  induction ds as [|d ds IH]; intros t t' E; cbn [StartProofs4.saying effects] in *; [exact E|]. destruct (effect d t) as [t1|]; [now apply IH|]. destruct d; discriminate.
Qed.

Lemma codes_small locale contents ds : file_says locale contents ds -> Forall (fun e => fst e < 2 ^ 31)%N (entries ds).
Proof.
  intros (ps & j & _ & M). induction M as [|i p s j d ps k ds V L M IH]; [constructor|]. cbn [entries flat_map]. apply Forall_app. split; [|exact IH].
  destruct L; try constructor; [|constructor]. match goal with H : numbered _ _ _ |- _ => destruct H as (? & ? & ? & ? & _ & _ & _ & (? & ? & _ & (_ & R) & _) & _) end. cbn [fst]. lia.
Qed.

Lemma largest_spec ds m : greatest_of (entries ds) m -> m = largest ds.
Proof.
  unfold largest. intros (F & O). generalize dependent (entries ds). intros l F O.
  assert (U : (fold_right N.max 0 (map fst l) <= m)%N) by (clear O; induction F; cbn [map fold_right]; lia).
  assert (L : forall k, In k (map fst l) -> (k <= fold_right N.max 0 (map fst l))%N).
  { clear. induction (map fst l) as [|x r IH]; cbn [fold_right]; intros k []; [subst; lia|]. apply IH in H. lia. }
  destruct O as [->|O]; [lia|]. apply L in O. lia.
Qed.

Section generate.

Context {al : allocator}.

(** ** The rows *)

Lemma grow_grow s a b : grow (grow s a) b = grow s (a ++ b).
Proof. unfold grow. cbn [s_heap s_words]. now rewrite app_assoc. Qed.

Lemma grow_none s : grow s [] = s.
Proof. destruct s as [h w]. unfold grow. cbn [s_heap s_words]. now rewrite app_nil_r. Qed.

Lemma table_grown s p t c own extra : table_at s p t c own -> table_at (grow s extra) p t c own.
Proof.
  intros T. apply (table_at_same s); [|exact T]. intros b I. split; [|reflexivity]. cbn [grow s_heap]. apply nth_error_app1. exact (own_old _ _ _ _ _ _ T I).
Qed.

Lemma generate_rounds s p t c own : table_at s p t c own ->
  forall n fuel i extra, length (t_rows t) - i = n -> i <= length (t_rows t) -> n < fuel ->
  follows (fun h k => exists more, h = s_heap s ++ more /\ heap_size more + N.to_nat k <= heap_size extra + escape_room (skipn i (t_rows t))) (fun _ _ => False)
    (fun (_ _ : unit) s' => exists more, s' = grow s more /\ live more = live extra + length (row_keys (skipn i (t_rows t))))
    (rows_say (skipn i (t_rows t)))
   (wrounds fuel (fun i =>
    let$ length := int_at p T_length in
    if (i <? length)%Z then
      let$ rows := c_rows p in
      let$ k := c_row_key rows i in
      if (k =? 0)%N then wret (inl (i + 1)%Z)
      else
        let$ rows := c_rows p in
        let$ k := c_row_key rows i in
        let$ rows := c_rows p in
        let$ data := c_row_data rows i in
        let$ data := deref data in
        let$ escaped := bytes (c_escape_string data) in
        let$ e := bytes (c_read escaped) in
        let$ _ := c_print Stdout (row_text k e) in
        wret (inl (i + 1)%Z)
    else wret (inr tt)) (Z.of_nat i) (grow s extra)).
Proof.
  intros T. induction n as [|n IH]; intros fuel i extra E Li Lt; (destruct fuel as [|fuel]; [lia|]); cbn [wrounds];
    pose proof (table_grown s p t c own extra T) as (rp & ds & df & CP & CR & F & D & Eo & ND & (Pos & Le & Us & Md & Mk & K & Mx));
    pose proof (Forall2_len _ _ _ F) as L; rewrite wbind_assoc; step (int_at_ok _ _ _ 0 _ CP eq_refl); rewrite of_nat_ltb.
  - replace (i <? length (t_rows t)) with false by (symmetry; apply Nat.ltb_ge; lia). rewrite wbind_ret.
    rewrite skipn_all2 by lia. apply follows_value. exists extra. split; [reflexivity|]. cbn [row_keys filter map length]. unfold row_keys. cbn. lia.
  - assert (I : i < length (t_rows t)) by lia. pose proof I as I'. apply Nat.ltb_lt in I' as ->.
    rewrite wbind_assoc. step (rows_ok (grow s extra) p _ rp CP eq_refl). rewrite wbind_assoc. step (row_key_ok (grow s extra) rp (t_rows t) ds CR L K i I).
    pose proof (nth_row (t_rows t) i I) as NR.
    destruct (skipn i (t_rows t)) as [|r rest] eqn:Sk.
    { apply (f_equal (@length _)) in Sk. rewrite skipn_length in Sk. cbn in Sk. lia. }
    destruct (skipn_nth _ _ _ _ Sk) as (Nr & Rest). rewrite NR in Nr. injection Nr as Nr. rewrite Nr.
    cbn [rows_say]. rewrite row_keys_cons. assert (Z1 : (Z.of_nat i + 1)%Z = Z.of_nat (S i)) by lia. replace (i + 1) with (S i) in Rest by lia.
    destruct (r_key r =? 0)%N eqn:Ez.
    + rewrite wbind_ret, tbind_done, Z1. specialize (IH fuel (S i) extra ltac:(lia) ltac:(lia) ltac:(lia)). rewrite Rest in IH.
      eapply follows_weaken; [exact IH| |easy|auto]. intros h k (more & -> & Hs). exists more. split; [reflexivity|]. rewrite escape_room_cons. lia.
    + rewrite wbind_assoc. step (rows_ok (grow s extra) p _ rp CP eq_refl). rewrite wbind_assoc. step (row_key_ok (grow s extra) rp (t_rows t) ds CR L K i I).
      rewrite wbind_assoc. step (rows_ok (grow s extra) p _ rp CP eq_refl). rewrite Nr.
      assert (Nr' : nth_error (t_rows t) i = Some r) by now rewrite NR, Nr.
      assert (Ex : exists d, nth_error ds i = Some d /\ string_in (s_heap (grow s extra)) d (r_data r)).
      { destruct (nth_error ds i) as [d|] eqn:Nd; [|apply nth_error_None in Nd; lia]. exists d. split; [reflexivity|].
        clear - F Nd Nr'. revert i Nd Nr'. induction F as [|a b l l' S F IH]; intros [|i] Nd Nr; cbn in *; try discriminate; [congruence|eauto]. }
      destruct Ex as (d & Nd & Sd). rewrite wbind_assoc. step (row_data_ok (grow s extra) rp (t_rows t) ds CR L i d Nd).
      destruct (r_data r) as [x|] eqn:Er.
      * destruct d as [d|]; [|contradiction]. destruct Sd as (_ & Sd). rewrite wbind_assoc. step (eq_refl : deref (Some d) (grow s extra) = done (d, grow s extra)).
        assert (Lx : (N.of_nat (length x) < 2 ^ 62)%N).
        { specialize (Mx r x (nth_error_In _ _ Nr') Er). unfold int_max in Md. lia. }
        rewrite wbind_assoc, (escape_ok x (cstr_at_nonul _ _ _ Sd) Lx), quietly_ok.
        eapply follows_ends; [exact (escape_in_memory (grow s extra) d x Sd Lx)| |].
        -- intros h k (-> & Hk). exists extra. split; [reflexivity|]. rewrite escape_room_cons, Er. lia.
        -- intros q s' (-> & blk & -> & Lb). rewrite grow_grow. set (b := map Some (escaped x) ++ Some NUL :: blk) in *.
           rewrite wbind_assoc. rewrite (wbind_done _ _ _ _ _ (read_same (grow s (extra ++ [Some b])) (mkPtr (length (s_heap (grow s extra))) 0) (escaped x)
             ltac:(apply (MemFacts.cstr_block _ _ _ blk); [cbn [grow s_heap]; rewrite app_assoc; apply nth_last|apply escaped_nonul, (cstr_at_nonul _ _ _ Sd)]))).
           rewrite wbind_assoc. apply follows_print. rewrite wbind_ret, Z1. specialize (IH fuel (S i) (extra ++ [Some b]) ltac:(lia) ltac:(lia) ltac:(lia)). rewrite Rest in IH.
           eapply follows_weaken; [exact IH| |easy|].
           ++ intros h k (more & -> & Hs). exists more. split; [reflexivity|]. rewrite escape_room_cons, Er. assert (Sb : heap_size [Some b] = 2 * length x + 1) by (rewrite size_one; exact Lb). rewrite size_app, Sb in Hs. lia.
           ++ intros _ _ s' (more & -> & Lv). exists more. split; [reflexivity|]. rewrite live_app in Lv. change (live [Some b]) with 1 in Lv. cbn [length]. lia.
      * exfalso. rewrite Forall_forall in K. assert (Ir : In r (t_rows t)) by exact (nth_error_In _ _ Nr'). apply K in Ir as (_ & Z). apply N.eqb_neq in Ez. apply Ez, Z, Er.
Qed.

Lemma generate_rows_ok s p t c own : table_at s p t c own ->
  follows (fun h k => exists more, h = s_heap s ++ more /\ heap_size more + N.to_nat k <= escape_room (t_rows t)) (fun _ _ => False)
    (fun (_ _ : unit) s' => exists more, s' = grow s more /\ live more = length (row_keys (t_rows t)))
    (rows_say (t_rows t)) (c_generate_rows p s).
Proof.
  intros T. unfold c_generate_rows, wwhile. pose proof T as (rp & ds & df & CP & CR & F & _).
  pose proof (generate_rounds s p t c own T (length (t_rows t)) (S (heap_size (s_heap s))) 0 [] ltac:(lia) ltac:(lia)) as G. rewrite grow_none in G. apply G.
  pose proof (content_size _ _ _ CR) as Sz. rewrite row_values_length in Sz by exact (Forall2_len _ _ _ F). lia.
Qed.

(** ** What is printed of a table *)

Lemma table_ok s file p t c own : table_at s p t c own -> (Z.of_nat (t_used t) + 256 <= int_max)%Z ->
  follows (fun h k => exists more, h = s_heap s ++ more /\ heap_size more + N.to_nat k <= escape_room (t_rows t)) (fun _ _ => False)
    (fun (_ _ : unit) s' => exists more, s' = grow s more /\ live more = length (row_keys (t_rows t)))
    (table_says file t)
    ((let$ _ := c_print Stdout (header_text file) in
      let$ used := int_at p T_used in
      let$ _ := c_print Stdout (array_text (Z.to_N used)) in
      let$ _ := c_generate_rows p in
      let$ _ := c_print Stdout end_text in
      let$ used := int_at p T_used in
      let$ max_data_length := int_at p T_max_data_length in
      let$ max_key := int_at p T_max_key in
      let$ overwrites := int_at p T_overwrites in
      let$ _ := c_print Stdout (members_text (Z.to_N used) (Z.to_N max_data_length) (unsigned_of max_key) (Z.to_N overwrites)) in
      let$ default := ptr_at p T_default_translation in
      let$ _ :=
        (match default with
         | None => c_print Stdout (default_text None)
         | Some default => let$ d := bytes (c_read default) in c_print Stdout (default_text (Some d))
         end) in
      let$ _ := c_print Stdout end_text in
      let$ used := int_at p T_used in
      let$ size := c_again_size used in
      c_print Stdout (loader_text (Z.to_N size))) s).
Proof.
  intros T Lu. unfold table_says. apply follows_print. pose proof T as (rp & ds & df & CP & _). step (int_at_ok s p _ 1 _ CP eq_refl).
  rewrite <- Z_nat_N, Nat2Z.id. apply follows_print. eapply follows_bind; [exact (generate_rows_ok s p t c own T)|].
  intros _ _ s' (more & -> & Lv). apply follows_print.
  pose proof (table_grown s p t c own more T) as (rp' & ds' & df' & CP' & CR' & F' & D' & Eo' & ND' & (Pos & Le & Us & Md & Mk & K & Mx)).
  step (int_at_ok _ p _ 1 _ CP' eq_refl). step (int_at_ok _ p _ 2 _ CP' eq_refl). step (int_at_ok _ p _ 11 _ CP' eq_refl). step (int_at_ok _ p _ 7 _ CP' eq_refl).
  rewrite <- !Z_nat_N, !Nat2Z.id, unsigned_int by exact Mk. apply follows_print. step (ptr_at_ok _ p _ 3 _ CP' eq_refl).
  assert (Tx : follows (fun h k => exists more, h = s_heap s ++ more /\ heap_size more + N.to_nat k <= escape_room (t_rows t)) (fun _ _ => False)
     (fun (_ _ : unit) s' => s' = grow s more) (say Stdout (default_text (t_default t)))
     ((match df' with None => c_print Stdout (default_text None) | Some default => let$ d := bytes (c_read default) in c_print Stdout (default_text (Some d)) end) (grow s more))).
  { destruct df' as [q|], (t_default t) as [x|]; try contradiction; [|eapply follows_done; reflexivity]. destruct D' as (_ & D'). step (read_same _ _ _ D'). eapply follows_done; reflexivity. }
  eapply follows_bind; [exact Tx|]. intros _ _ s' ->. apply follows_print. step (int_at_ok _ p _ 1 _ CP' eq_refl).
  step (again_size_ok (t_used t) (grow s more) Lu). rewrite N2Z.id. eapply follows_done; [reflexivity|]. eauto.
Qed.

(** ** The program *)

Lemma loaded_facts locale contents ds t : file_says locale contents ds -> snd (parse_table_says locale contents) = Ok (Some t) ->
  tallied (room contents) true 0 (entries ds) t /\ t_default t = default_of None ds /\ t_maxkey t = largest ds /\ (largest ds < 2 ^ 31)%N /\
  texts_room (t_rows t) + text_room (t_default t) <= text_bytes ds /\ length (row_keys (t_rows t)) = length (nodup N.eq_dec (map fst (entries ds))) /\
  length (row_keys (t_rows t)) <= N.to_nat (t_maxkey t) /\ length (entries ds) <= room contents.
Proof.
  intros F P. pose proof (codes_small _ _ _ F) as Cs. rewrite (parse_saying _ _ _ F) in P. cbn [snd] in P. injection P as P. apply saying_effects in P.
  change (table_init (Z.of_nat (table_capacity (length contents)))) with (start_with (Z.of_nat (table_capacity (length contents))) true) in P.
  destruct (accepted_tally _ _ _ _ P) as (Ta & Df & Z & L). rewrite table_capacity_room in Ta, L.
  pose proof (largest_spec _ _ (ta_greatest _ _ _ _ _ Ta)) as Mx. destruct (tallied_keys _ _ _ _ _ Ta) as (ND & J). splits; auto.
  - rewrite <- Mx. destruct (ta_greatest _ _ _ _ _ Ta) as (_ & [->|I]); [lia|]. apply in_map_iff in I as (e & <- & I). rewrite Forall_forall in Cs. now apply Cs.
  - pose proof (effects_room _ _ _ P) as Er. unfold start_with in Er. rewrite table_init_eq in Er. cbn [t_rows t_default] in Er. rewrite texts_empty in Er. cbn [text_room] in Er. lia.
  - apply Nat.le_antisymm; apply NoDup_incl_length; auto using NoDup_nodup; intros k I; [apply nodup_In, J, I|apply J; now apply nodup_In in I].
  - assert (In1 : incl (row_keys (t_rows t)) (map N.of_nat (seq 1 (N.to_nat (t_maxkey t))))).
    { intros k I. apply J in I. assert (k <> 0%N) by (intros ->; auto). destruct (ta_greatest _ _ _ _ _ Ta) as (G & _). rewrite Forall_forall in G.
      apply in_map_iff in I as (e & <- & I). apply G in I. apply in_map_iff. exists (N.to_nat (fst e)). split; [lia|]. apply in_seq. lia. }
    apply NoDup_incl_length in In1; auto. now rewrite map_length, seq_length in In1.
Qed.

Theorem generate_ok locale file found denied s : limited al -> sizeable found -> (Z.of_nat (table_capacity denied) <= int_max)%Z ->
  follows (wants s locale found denied) (fun _ _ => False) (fun (_ _ : unit) s' => remains s locale found s')
    (generate_says locale file found) (c_generate_loader locale file found denied s).
Proof.
  intros Lim Sz Dn. unfold c_generate_loader, generate_says, loaded_says, c_loaded. destruct found as [|message|contents].
  - apply follows_ub; reflexivity.
  - eapply follows_bind with (Q := fun r q _ => r = None /\ q = None).
    + eapply CReviewProofs.comes_follows; [exact (denied_in_memory s _ message Dn)| |].
      * intros h k [(-> & ->)|(-> & ->)]; [exists []; rewrite app_nil_r|exists [blank 64]]; eexists; (split; [reflexivity|]); (split; [apply gen_locked|]);
          [change (heap_size []) with 0|change (heap_size [blank 64]) with 64]; lia.
      * intros said q s' (-> & -> & _). exists None. split; [unfold complain, say; cbn [tbind done quietly app]; rewrite <- ?app_assoc; reflexivity|auto].
    + intros r q s' (-> & ->). apply follows_ub; reflexivity.
  - destruct (file_says_one locale contents) as (ds & F & _). cbn [sizeable] in Sz.
    assert (Ln : (Z.of_nat (room contents) + 256 < int_max)%Z).
    { unfold room. pose proof (Nat.div_mod (length contents) 6 ltac:(lia)). unfold int_max in *. lia. }
    eapply follows_bind with (Q := fun r q s' => snd (parse_table_says locale contents) = Ok r /\ (forall b, b < length (s_heap s) -> s_words s' b = s_words s b) /\
       exists more, s_heap s' = s_heap s ++ more /\
       match r with
       | Some t => exists p own, q = Some p /\ table_at s' p t (mkCounters 0 0 0) own /\ (forall b, In b own -> length (s_heap s) <= b) /\
           live more = length own + replacing (entries ds) + defaults_lost ds /\ heap_size more + 2048 = loading_size contents ds
       | None => q = None
       end).
    + eapply CReviewProofs.comes_follows; [exact (parse_in_memory s locale contents ds F ltac:(lia))| |].
      * intros h k (more & -> & Hs). exists more. eexists. split; [reflexivity|]. split; [apply gen_readable, F|lia].
      * intros said q s' (W & more & H & r & E & X). exists r. split; [exact E|]. rewrite E. splits; auto. exists more. split; [exact H|]. destruct r; [exact X|]. destruct X as (? & ? & ? & ? & -> & _). reflexivity.
    + intros r q s1 (P & Ws & more & H & X). destruct r as [t|]; [|subst q; apply follows_ub; reflexivity].
      destruct X as (p & own & -> & T & On & Lv & Szm). destruct (loaded_facts _ _ _ _ F P) as (Ta & Df & Mx & Lx & Tx & Nk & Ck & Le).
      step (eq_refl : deref (Some p) s1 = done (p, s1)). pose proof T as (rp & dd & df & CP & _). step (int_at_ok s1 _ _ 11 _ CP eq_refl).
      assert (Io : int_of (t_maxkey t) = Z.of_N (t_maxkey t)).
      { apply int_small. unfold int_max. lia. }
      rewrite Io. unfold int_sum. destruct (N.leb_spec (2 ^ 31) (t_maxkey t + 1)) as [Big|Small].
      { destruct (Z.leb_spec (Z.of_N (t_maxkey t) + 1) int_max); [unfold int_max in *; lia|]. apply follows_ub; reflexivity. }
      destruct (Z.leb_spec (Z.of_N (t_maxkey t) + 1) int_max) as [Fit|]; [|unfold int_max in *; lia]. rewrite wbind_ret.
      set (n := (Z.of_N (t_maxkey t) + 1)%Z) in *.
      assert (Nn : new_size n = S (N.to_nat (largest ds))). { unfold new_size, n. rewrite Mx. destruct (Z.leb_spec (Z.of_N (largest ds) + 1) 0); lia. }
      assert (Ow : (Z.of_nat (t_overwrites t) < int_max)%Z).
      { pose proof (ta_over _ _ _ _ _ Ta). lia. }
      destruct (resize_tallied (room contents) true 0 (entries ds) t (S (N.to_nat (t_maxkey t))) true Ta ltac:(lia) ltac:(lia)) as (u & Eu & Tu & Du & Gu).
      replace (Z.of_nat (S (N.to_nat (t_maxkey t)))) with n in Eu by (unfold n; lia).
      assert (Ku : length (row_keys (t_rows u)) = length (row_keys (t_rows t))).
      { destruct (keys_of_row_keys t (ta_wf _ _ _ _ _ Ta)) as (N1 & J1), (keys_of_row_keys u (ta_wf _ _ _ _ _ Tu)) as (N2 & J2).
        apply Nat.le_antisymm; apply NoDup_incl_length; auto; intros k J; [apply J1; rewrite <- Gu; now apply J2|apply J2; rewrite Gu; now apply J1]. }
      assert (Uu : t_used u = length (row_keys (t_rows t))).
      { rewrite (ta_used _ _ _ _ _ Tu), <- (map_length fst), stored_keys by apply (ta_wf _ _ _ _ _ Ta). reflexivity. }
      assert (Lk : length (row_keys (t_rows t)) <= room contents).
      { pose proof (ta_over _ _ _ _ _ Ta). lia. }
      assert (Tr : texts_room (t_rows u) <= texts_room (t_rows t)) by (rewrite <- Eu; apply resize_room). pose proof (escape_room_texts (t_rows u)) as Ro.
      eapply follows_ends; [exact (resize_in_memory s1 p t _ own n true Lim T (ta_wf _ _ _ _ _ Ta) Fit Ow)| |].
      * intros h k (more1 & -> & Hs). exists (more ++ more1). eexists. rewrite H, <- app_assoc. split; [reflexivity|]. split; [apply gen_readable, F|]. rewrite size_app.
        unfold copy_room in Hs. rewrite Nn in Hs. lia.
      * intros q s2 (-> & own' & more1 & _ & Tq & H2 & Ws2 & On' & Lv' & _ & Sz'). rewrite Eu in *. unfold copy_room in Sz'. rewrite Nn in Sz'.
        eapply follows_weaken; [exact (table_ok s2 file _ u _ own' Tq ltac:(lia))| |easy|].
        -- intros h k (more2 & -> & Hs). exists (more ++ more1 ++ more2). eexists. rewrite H2, H, <- !app_assoc. split; [reflexivity|]. split; [apply gen_readable, F|]. rewrite !size_app. lia.
        -- intros _ _ s' (more2 & -> & Lv2). split; [intros b Lb; cbn [grow s_words]; rewrite Ws2; [auto|rewrite H, app_length; lia]|].
           exists contents, ds, (more ++ more1 ++ more2). splits; auto; [cbn [grow s_heap]; now rewrite H2, H, <- !app_assoc|].
           rewrite !live_app, Lv, Lv', Lv2, (own_count _ _ _ _ _ T), (own_count _ _ _ _ _ Tq), Du, Df, Ku, Nk. unfold kept. lia.
Qed.

Theorem generator_main_ok locale args found denied s : limited al ->
  (forall file, hd_error args = Some file -> sizeable (found file) /\ (Z.of_nat (table_capacity (denied file)) <= int_max)%Z) ->
  follows (fun h k => exists file, hd_error args = Some file /\ wants s locale (found file) (denied file) h k) (fun _ _ => False)
    (fun status status' s' => status' = status /\ (args = [] /\ s' = s \/ exists file, hd_error args = Some file /\ remains s locale (found file) s'))
    (generator_main locale args found) (c_generator_main locale args found denied s).
Proof.
  intros Lim Sz. destruct args as [|file args]; cbn [generator_main c_generator_main].
  - apply follows_print, follows_value. auto.
  - destruct (Sz file eq_refl) as (S1 & S2). eapply follows_bind.
    + eapply follows_weaken; [exact (generate_ok locale (basename (Some file)) (found file) (denied file) s Lim S1 S2)| |easy|intros b a s' X; exact X]. intros h k X. exists file. auto.
    + intros u u' s' X. apply follows_value. split; [reflexivity|]. right. exists file. auto.
Qed.

End generate.
