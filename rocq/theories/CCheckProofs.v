(** * Proofs about check-table in memory: lines *)

From Verif Require Import Base BaseFacts Stdio StdioFacts Table TableSpec TableProofs Prog ParseTable ParseTableSpec ParseTableProofs TableFileSpec TableFileProofs
  GenBuiltin GenSpec GenProofs Escape EscapeSpec EscapeProofs MainSpec CheckTable CheckSpec CheckProofs
  Warnings WarningsProofs Startup StartProofs4 Mem MemSpec MemFacts CFiltersProofs Words WordsSpec WordsFacts CTable CTableProofs CTableProofs2 TablesSpec CTableProofs3
  CParseTable LoadSpec CParseTableProofs CParseTableProofs2 LinkedSpec CConfigProofs5 CConfigProofs7 CCheck.

Local Open Scope nat_scope.

(** ** Statistics *)

Definition cset (n : CheckTable.counters) : counters := mkCounters (Z.of_nat (c_hits n)) (Z.of_nat (c_misses n)) (Z.of_nat (c_seeks n)).

Definition below (n : CheckTable.counters) (m : nat) : Prop := c_hits n <= m /\ c_misses n <= m /\ c_seeks n <= m.

Lemma below_sound n m : below n m -> (Z.of_nat m < int_max)%Z -> sound (cset n).
Proof. intros (A & B & C) L. unfold sound, cset. cbn [n_hits n_misses n_seeks]. lia. Qed.

Lemma below_get t k n m : below n m -> below (snd (counted_get t k n)) (S m).
Proof.
  intros (A & B & C). unfold counted_get, below. destruct (k =? 0)%N; [cbn; lia|].
  destruct (t_hash t && _); destruct (get_offset t k); cbn; lia.
Qed.

Lemma find_row_exists q rows : forall i, (match find_row q rows i with Some _ => true | None => false end) = existsb q rows.
Proof. induction rows as [|r rows IH]; intros i; [reflexivity|]. cbn [find_row existsb]. destruct (q r); [reflexivity|apply IH]. Qed.

Lemma counted_same t k n : counted t k (cset n) = cset (snd (counted_get t k n)).
Proof.
  unfold counted, counted_get. destruct (k =? 0)%N; [reflexivity|].
  change (nth (N.to_nat (k mod N.of_nat (length (t_rows t)))) (t_rows t) (mkRow 0 None)) with (row_at (t_rows t) (table_hash (t_length t) k)).
  unfold get_offset. destruct (t_hash t && _); unfold cset; cbn [snd c_hits c_misses c_seeks n_hits n_misses n_seeks]; [f_equal; lia|].
  rewrite <- (find_row_exists (fun r => (r_key r =? k)%N) (t_rows t) 0). destruct (find_row _ (t_rows t) 0); cbn [snd c_hits c_misses c_seeks n_hits n_misses n_seeks]; f_equal; lia.
Qed.

Section check.

Context {al : allocator}.

Lemma follows_print {A B} (R R' : heap -> N -> Prop) (Q : B -> A -> store_t -> Prop) out text pure (k : unit -> wmem A) s :
  follows R R' Q pure (k tt s) -> follows R R' Q (let% _ := say out text in pure) (wbind (c_print out text) k s).
Proof.
  intros F. unfold wbind, c_print, Words.saying, say. cbn [tbind done quietly app]. destruct pure as [o r]. destruct (k tt s) as [o2 r2] eqn:E.
  exact (follows_prefix R R' Q [(out, text)] (o, r) (o2, r2) F).
Qed.

Lemma follows_value {A B} (R R' : heap -> N -> Prop) (Q : B -> A -> store_t -> Prop) b a s : Q b a s -> follows R R' Q (done b) (done (a, s)).
Proof. intros H. eapply follows_done; [reflexivity|exact H]. Qed.

Lemma same_ok s p q x y : cstr_at (s_heap s) p x -> cstr_at (s_heap s) q y -> bytes (c_same p q) s = done (str_eqb x y, s).
Proof.
  intros A B. apply bytes_same. unfold c_same. rewrite (mbind_done _ _ _ _ _ (read_ok _ _ _ A)). now rewrite (mbind_done _ _ _ _ _ (read_ok _ _ _ B)).
Qed.

Lemma read_same s p x : cstr_at (s_heap s) p x -> bytes (c_read p) s = done (x, s).
Proof. intros C. apply bytes_same. now apply read_ok. Qed.

Lemma longest_ok s p x l : cstr_at (s_heap s) p x -> length x <= 1023 -> l <= 1023 ->
  c_longest p (Z.of_nat l) s = done (Z.of_nat (if l <? length x then length x else l), s).
Proof.
  intros C Lx Ll. unfold c_longest. step (bytes_same (c_strlen p) s _ (strlen_ok _ _ _ C)).
  rewrite size_nat by (unfold int_max; lia). unfold strlen.
  replace (N.of_nat l <? N.of_nat (length x))%N with (l <? length x).
  2: { destruct (Nat.ltb_spec l (length x)), (N.ltb_spec (N.of_nat l) (N.of_nat (length x))); auto; lia. }
  destruct (l <? length x); [|reflexivity]. step (bytes_same (c_strlen p) s _ (strlen_ok _ _ _ C)).
  unfold wret, strlen, int_of. rewrite Z.mod_small by lia. destruct (Z.leb_spec (Z.of_N (N.of_nat (length x))) int_max); [|unfold int_max in *; lia].
  do 2 f_equal. lia.
Qed.

Lemma parsing_get {w0} n s0 s p W P t k z key : @parsing (cset n) w0 s0 s p W P t k z -> sound (cset n) ->
  exists q s', c_table_get (Some p) key s = done (q, s') /\ string_in (s_heap s') q (fst (counted_get t key n)) /\
    @parsing (cset (snd (counted_get t key n))) w0 s0 s' p W P t k z /\ s_heap s' = s_heap s.
Proof.
  intros (own & more & T & Wf & Nb & Ow & Ln & H & On & LW & LP & D & BW & BP & Ws & Lv & Hz) So.
  destruct (get_in_memory s p t (cset n) own key T So) as (q & s' & E & Sq & _ & T' & H' & Sb). rewrite counted_same in T'.
  exists q, s'. rewrite counted_get_value. splits; auto. exists own, more. rewrite H'. splits; auto.
  intros b Lb. rewrite <- Ws by exact Lb. apply Sb. intros [<-|[]]. destruct T as (rp & ds & df & _ & _ & _ & _ & -> & _).
  specialize (On (p_block p) (or_introl eq_refl)). lia.
Qed.

(** ** The first time *)

Definition vars_of (st : ck_state) : ck_vars := mkVars (ck_inside st) (ck_offset st) (Z.of_N (ck_last st)) (Z.of_nat (ck_longest st)).

(** The figures are those of int variables. *)
Definition moderate (st : ck_state) : Prop := below (ck_counters st) (t_used (ck_table st)) /\ ck_longest st <= 1023.

Definition line_done (s0 : store_t) (p : ptr) (W P : nat) (st : ck_state) (k z : nat) (j : bool) (d : directive)
  (r : option ck_state) (r' : option ck_vars) (s' : store_t) : Prop :=
  r' = option_map vars_of r /\
  match r with
  | Some st' => effect d (ck_table st) = Some (ck_table st') /\ ck_inside st' = j /\ moderate st' /\
      @parsing (cset (ck_counters st')) 0 s0 s' p W P (ck_table st') (k + dropped d (ck_table st)) (z + text_bytes [d])
  | None => effect d (ck_table st) = None /\ (exists c x, d = Entry c x) /\ @parsing (cset (ck_counters st)) 0 s0 s' p W P (ck_table st) k z
  end.

Lemma bytes_store s0 s p W P t k z w0 cn line : @parsing cn w0 s0 s p W P t k z -> cstr_at (s_heap s) (mkPtr W 0) line ->
  exists s1, bytes (store (mkPtr P 0) NUL) s = done (tt, s1) /\ @parsing cn w0 s0 s1 p W P t k z /\ cstr_at (s_heap s1) (mkPtr W 0) line /\ cstr_at (s_heap s1) (mkPtr P 0) [].
Proof.
  intros I C. destruct (put_string (s_heap s) P [] (parsing_P _ _ _ _ _ _ _ _ I)) as (cells & Lc & Ep & Cp); [apply nonul_nil|unfold TABLE_BUFFER; cbn; lia|].
  destruct (scratch s0 s p W P t k z (store (mkPtr P 0) NUL) tt cells line I) as (s1 & E1 & I1 & C1 & H1); auto.
  { revert Ep. unfold c_put_string. cbn [app c_write]. rewrite mbind_assoc. unfold mbind. destruct (store (mkPtr P 0) NUL (s_heap s)) as [said [[[] h]| |]] eqn:E; cbn; rewrite ?app_nil_r; congruence. }
  exists s1. splits; auto. now rewrite H1.
Qed.

Lemma same_text (a b : str) : a = b -> str_eqb a b = true.
Proof. intros ->. now apply str_eqb_eq. Qed.

Lemma check_line_ok s0 s p W P st k z line j d : moderate st ->
  @parsing (cset (ck_counters st)) 0 s0 s p W P (ck_table st) k z -> cstr_at (s_heap s) (mkPtr W 0) line -> length line <= 1023 ->
  means [] (ck_inside st) line j d ->
  follows (fun h n => exists more, h = s_heap s0 ++ more /\ heap_size more + N.to_nat n <= z + text_bytes [d]) (fun _ _ => False)
    (line_done s0 p W P st k z j d) (check_line line st) (c_check_line p (mkPtr W 0) (mkPtr P 0) (vars_of st) s).
Proof.
  intros Mo I C L M. apply means_iff in M. unfold meaning in M. destruct st as [i off t n last l]. destruct Mo as (Bl & Ll).
  unfold c_check_line, check_line, vars_of, moderate in *. cbn [ck_inside ck_offset ck_table ck_counters ck_last ck_longest v_inside v_offset v_last v_longest] in *.
  assert (H : exists b, bytes (load (mkPtr W 0)) s = done (b, s) /\ beq b "#" = is_hash line).
  { destruct line as [|b r]; [exists NUL; split; [now apply load_end|reflexivity]|]. exists b. split; [now apply (load_head _ _ _ r)|reflexivity]. }
  destruct H as (b & Eb & Hb). step Eb. rewrite Hb. fold (is_hash line). destruct (is_hash line).
  { injection M as <- <-. apply follows_value. split; [reflexivity|]. cbn [ck_inside ck_table ck_counters effect dropped text_bytes list_sum map fold_right]. rewrite !Nat.add_0_r. unfold moderate. auto. }
  destruct (bytes_store _ _ _ _ _ _ _ _ _ _ line I C) as (s1 & E1 & I1 & C1 & F1). step E1. clear I C E1 Eb s. rename s1 into s, I1 into I, C1 into C, F1 into F.
  pose proof (word_in_memory s0 s p W P t k z line [] off I C L F) as WM. pose proof (scan_word_at line) as SW.
  pose proof (word_at_stops line) as WS. pose proof (scan_number_at line) as IA. pose proof (number_at_stops line) as NS. pose proof (number_range line) as NR.
  assert (Quiet : forall R j' off' last' s', @parsing (cset n) 0 s0 s' p W P t k z -> effect d t = Some t -> dropped d t = 0 -> text_bytes [d] = 0 -> j' = j ->
    follows R (fun _ _ => False) (line_done s0 p W P (mkCk i off t n last l) k z j d) (done (Some (mkCk j' off' t n last' l)))
      (done (Some (mkVars j' off' (Z.of_N last') (Z.of_nat l)), s'))).
  { intros R j' off' last' s' I' Ef Dr Tb ->. apply follows_value. split; [reflexivity|]. cbn [ck_inside ck_table ck_counters]. rewrite Dr, Tb, !Nat.add_0_r. unfold moderate. cbn [ck_table ck_counters ck_longest]. auto. }
  destruct i; cbn [negb].
  - (* inside *)
    assert (WD : forall off0 R, (j, d) = (match word_at line with Some (w, _) => negb (strncaseeq 5 w (bs "end")) | None => true end, Nothing) ->
       follows R (fun _ _ => False) (line_done s0 p W P (mkCk true off t n last l) k z j d)
       (match scan_word line with
        | Some (w, m) =>
          let% parsed := quietly (store_parsed w) in
          done (Some (mkCk (negb (strncaseeq 5 parsed (bs "end"))) (Some m) t n last l))
        | None => done (Some (mkCk true off0 t n last l))
        end)
       ((let$ (found, offset) := bytes (c_scan_word (mkPtr W 0) (mkPtr P 0) off0) in
         let$ last0 := (if found : bool then bytes (c_starts 5 (mkPtr P 0) (bs "end")) else wret false) in
         wret (Some (mkVars (negb last0) offset (Z.of_N last) (Z.of_nat l)))) s)).
    { intros off0 R [= Ej Ed]. subst d. clear WM. pose proof (word_in_memory s0 s p W P t k z line [] off0 I C L F) as WM. destruct (word_at line) as [[w r]|].
      - destruct SW as (m' & Ew & _ & Lw & _). rewrite Ew. rewrite store_short by lia. rewrite tbind_ok.
        destruct WM as (m & s1 & E & I1 & _ & Cw & _). assert (Em : m' = m).
        { revert E. unfold c_scan_word, bytes, mbind. rewrite (read_ok _ _ _ C). cbn [tbind done quietly]. rewrite Ew.
          destruct (c_put_string (mkPtr P 0) w (s_heap s)) as [o [[u h']| |]]; cbn; try discriminate. intros E. injection E. auto. }
        subst m'. step E. cbv iota. step (starts_ok s1 _ w 5 (bs "end") Cw). apply Quiet; auto.
      - rewrite SW. step WM. rewrite wbind_ret. apply Quiet; auto. }
    step (read_same s _ _ C).
    destruct (number_at line) as [[zc r]|].
    + destruct IA as (m & -> & O & LR). destruct (zc <? 0)%Z eqn:Neg.
      * injection M as <- <-. apply WD. reflexivity.
      * apply Z.ltb_ge in Neg. injection M as <- <-. rewrite (at_start_text line (Some m) r []) by (eauto; lia). rewrite tbind_done.
        unfold c_at_offset. step (bytes_same (mret (plus (mkPtr W 0) m)) s (mkPtr W m) eq_refl).
        pose proof (offset_at _ _ _ _ _ C O) as Cr. destruct r as [|c r].
        { step (load_end _ _ Cr). apply Quiet; auto. }
        destruct (load_head _ _ _ _ Cr) as (El & Nz). step El. rewrite Nz.
        destruct (text_in_memory s0 s p W P t k z m c r [] I Cr F (NS _ _ eq_refl)) as (s1 & Et & I1 & Ct); [lia|]. step Et.
        set (text := text_of [] (c :: r)) in *. set (code := Z.to_N zc) in *.
        assert (Lt : length text <= 1023) by (apply text_length; cbn [length] in *; lia).
        eapply follows_ends.
        { apply (parsing_put s0 s1 p W P t k z code _ _ eq_refl I1 Ct Lt). specialize (NR _ _ eq_refl). unfold code. lia. }
        { intros h n' (more & -> & Hs). exists more. split; [reflexivity|]. cbn [text_bytes list_sum map fold_right]. lia. }
        intros o s' X. unfold effect in X. destruct (table_put t code text) as [t' [oo|]] eqn:Pt.
        -- destruct X as (-> & I' & new & Hn). cbv iota.
           assert (Cp : cstr_at (s_heap s') (mkPtr P 0) text) by (rewrite Hn; now apply cstr_old).
           pose proof I' as (own' & more' & _ & Wf' & _ & _ & Ln' & _).
           assert (Acc : table_get t' code = Some text /\ S (t_used t) = t_used t' /\ t_used t' <= length (t_rows t')).
           { pose proof I1 as (own1 & more1 & _ & Wf1 & _). destruct (table_put_cases t code text Wf1) as [[X _]|(K & U & oq & X)]; [rewrite Pt in X; discriminate|].
             pose proof (table_get_put t code text code Wf1 K U) as G. rewrite Pt in G. cbn [fst] in G. rewrite N.eqb_refl in G. split; [exact G|].
             destruct (table_put_accept t code text Wf1 K U) as (o' & TP & _). rewrite Pt in TP. injection TP as -> _. pose proof (wf_used _ Wf'). cbn [t_used] in *. split; [reflexivity|]. pose proof (wf_used _ Wf') as UU. cbn [t_used] in UU. exact (proj2 UU). }
           destruct Acc as (G & Us & Ub).
           assert (So : sound (cset n)) by (apply (below_sound n (t_used t)); [exact Bl|lia]).
           destruct (parsing_get n s0 s' p W P t' k _ code I' So) as (q & s2 & Eg & Sq & I2 & H2). step Eg. rewrite <- H2 in Cp.
           pose proof (counted_get_value t' code n) as V. pose proof (below_get t' code n _ Bl) as Bl'.
           destruct (counted_get t' code n) as [check n']. cbn [fst snd] in *. rewrite G in V. subst check.
           destruct q as [q|]; [|contradiction]. destruct Sq as (_ & Sq).
           step (same_ok s2 _ _ _ _ Cp Sq). rewrite (same_text text text eq_refl). cbn [negb].
           step (longest_ok s2 _ _ l Cp Lt Ll).
           assert (Zc : zc = Z.of_N code) by (unfold code; lia). rewrite Zc, ?N2Z.id. clearbody code. subst zc.
           assert (Fin : line_done s0 p W P (mkCk true off t n last l) k z true (Entry code text)
             (Some (mkCk true (Some m) t' n' code (if l <? length text then length text else l)))
             (Some (mkVars true (Some m) (Z.of_N code) (Z.of_nat (if l <? length text then length text else l)))) s2).
           { split; [reflexivity|]. cbn [ck_table ck_counters ck_inside]. unfold effect, moderate. rewrite Pt. cbn [ck_table ck_counters ck_longest dropped]. splits; auto.
             - destruct Bl' as (A1 & A2 & A3). unfold below. splits; lia.
             - destruct (l <? length text); lia.
             - replace (z + text_bytes [Entry code text]) with (z + (length text + 1)) by (cbn [text_bytes list_sum map fold_right]; lia). now rewrite Nat.add_0_r. }
           replace (Z.of_N code <? Z.of_N last)%Z with (code <? last)%N by (destruct (N.ltb_spec code last), (Z.ltb_spec (Z.of_N code) (Z.of_N last)); auto; lia).
           replace (Z.of_N code =? Z.of_N last)%Z with (code =? last)%N by (destruct (N.eqb_spec code last), (Z.eqb_spec (Z.of_N code) (Z.of_N last)); auto; lia).
           destruct (code <? last)%N; [apply follows_print; now apply follows_value|]. destruct (code =? last)%N; [apply follows_print; now apply follows_value|].
           rewrite wbind_ret, tbind_done. now apply follows_value.
        -- destruct X as (-> & ->). change (-1 =? -1)%Z with true. cbv iota. step (read_same s1 _ _ Ct).
           apply follows_print. apply follows_value. split; [reflexivity|]. cbn [ck_table ck_counters]. unfold effect. rewrite Pt. splits; eauto.
    + destruct IA as (e & ->). change (-1 <? 0)%Z with true. cbv iota. injection M as <- <-. apply WD. reflexivity.
  - (* outside *)
    destruct (word_at line) as [[w r]|] eqn:WA.
    + destruct SW as (m' & Ew & O & LW & LR). rewrite Ew, store_short by lia. cbn [bind]. rewrite tbind_ok.
      destruct WM as (m & s1 & E & I1 & Cr & Cw & Lr & Lw). assert (Em : m' = m).
      { revert E. unfold c_scan_word, bytes, mbind. rewrite (read_ok _ _ _ C). cbn [tbind done quietly]. rewrite Ew.
        destruct (c_put_string (mkPtr P 0) w (s_heap s)) as [o [[u h']| |]]; cbn; try discriminate. intros E. injection E. auto. }
      subst m'. step E. cbv iota. specialize (WS w r eq_refl). rewrite (at_start_text line (Some m) r w) by (auto; lia). rewrite !tbind_done.
      step (starts_ok s1 _ w 5 (bs "start") Cw). destruct (strncaseeq 5 w (bs "start")); [|step (starts_ok s1 _ w 7 (bs "default") Cw); destruct (strncaseeq 7 w (bs "default"))];
        injection M as Ej <-.
      * unfold c_at_offset. step (bytes_same (mret (plus (mkPtr W 0) m)) s1 (mkPtr W m) eq_refl). destruct r as [|c r].
        { step (load_end _ _ Cr). apply (Quiet _ true (Some m) 0%N); auto. }
        destruct (load_head _ _ _ _ Cr) as (El & Nz). step El. rewrite Nz.
        destruct (text_in_memory s0 s1 p W P t k z m c r w I1 Cr Cw WS Lr) as (s2 & Et & I2 & Ct). step Et.
        step (read_same s2 _ _ Ct). apply follows_print. apply (Quiet _ false (Some m) 0%N); auto. rewrite <- Ej. symmetry.
        apply (false_iff _ _ (locale_iff (text_of w (c :: r)) [])). apply (no_language_applies line w c r); [now apply headed_iff|now apply text_at_iff].
      * subst j. unfold c_at_offset. step (bytes_same (mret (plus (mkPtr W 0) m)) s1 (mkPtr W m) eq_refl). destruct r as [|c r].
        { step (load_end _ _ Cr). cbn [beq]. destruct (parsing_default s0 s1 p W P t k z None None Zero [] I1) as (s2 & E2 & I2 & _); [auto|now left|].
          unfold grow in E2. rewrite app_nil_r in E2. change (beq NUL NUL) with true. cbv iota. replace s1 with (mkStore (s_heap s1) (s_words s1)) by now destruct s1.
          step E2. apply follows_value. split; [reflexivity|]. cbn [ck_table ck_counters ck_inside]. unfold moderate. cbn [ck_table ck_counters ck_longest]. splits; auto. }
        destruct (load_head _ _ _ _ Cr) as (El & Nz). step El. rewrite Nz.
        destruct (text_in_memory s0 s1 p W P t k z m c r w I1 Cr Cw WS Lr) as (s2 & Et & I2 & Ct). step Et.
        pose proof (text_length w (c :: r) Lw Lr) as Lt.
        eapply follows_ends; [apply (strdup_ok s2 _ _ Ct); unfold fits, strlen; lia| |].
        { destruct I2 as (own & more & _ & _ & _ & _ & _ & H2 & _ & _ & _ & _ & _ & _ & _ & _ & Hz). intros h n' (-> & ->). exists more. split; [exact H2|].
          cbn [text_bytes list_sum map fold_right]. unfold strlen. lia. }
        intros q s' (-> & -> & _).
        destruct (parsing_default s0 s2 p W P t k z (Some (text_of w (c :: r))) (Some (mkPtr (length (s_heap s2)) 0)) (Ptr (mkPtr (length (s_heap s2)) 0)) [string_block (text_of w (c :: r))] I2) as (s3 & E3 & I3 & H3).
        { splits; auto. exact (cstr_at_nonul _ _ _ Ct). } { right. eauto. }
        step E3. assert (Cp : cstr_at (s_heap s3) (mkPtr P 0) (text_of w (c :: r))) by (rewrite H3; now apply cstr_old).
        step (longest_ok s3 _ _ l Cp Lt Ll). apply follows_value. split; [reflexivity|]. cbn [ck_table ck_counters ck_inside]. unfold moderate. cbn [ck_table ck_counters ck_longest]. splits; auto.
        destruct (l <? _); lia.
      * apply (Quiet _ false (Some m) last); auto.
    + rewrite SW. cbn [bind]. rewrite tbind_ok. step WM. injection M as <- <-. step (starts_ok s _ [] 5 (bs "start") F). change (strncaseeq 5 [] (bs "start")) with false. cbv iota.
      step (starts_ok s _ [] 7 (bs "default") F). change (strncaseeq 7 [] (bs "default")) with false. cbv iota. apply (Quiet _ false off last); auto.
Qed.

End check.
