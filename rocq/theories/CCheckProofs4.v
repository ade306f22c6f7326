(** * Proofs about check-table in memory: the program *)

From Verif Require Import Base BaseFacts Stdio StdioFacts Table TableSpec TableProofs Prog ParseTable ParseTableSpec ParseTableProofs TableFileSpec TableFileProofs
  GenBuiltin GenSpec GenProofs Escape EscapeSpec EscapeProofs MainSpec CheckTable CheckSpec CheckProofs CheckProofs2
  Warnings WarningsProofs Startup StartProofs4 Mem MemSpec MemFacts CFiltersProofs Words WordsSpec WordsFacts CTable CTableProofs CTableProofs2 TablesSpec CTableProofs3
  CParseTable LoadSpec CParseTableProofs CParseTableProofs2 LinkedSpec CConfigProofs5 CConfigProofs7 CCheck CCheckProofs CCheckProofs2 CCheckSpec CCheckProofs3.
From Verif Require Import COptionsProofs.
From Verif Require CReviewProofs.

Local Open Scope nat_scope.

Section check.

Context {al : allocator}.

Lemma follows_quiet {A B C} (R R' : heap -> N -> Prop) (Q : B -> A -> store_t -> Prop) (m : wmem C) (k : C -> wmem A) s c pure : m s = done (c, s) ->
  follows R R' Q pure (k c s) -> follows R R' Q pure (wbind m k s).
Proof. intros E F. now rewrite (wbind_done _ _ _ _ _ E). Qed.

(** ** table_dump.c *)

Lemma dump_rounds (R : heap -> N -> Prop) s p t c verbose rp ds df :
  content s p (table_values t c df (Some rp)) -> content s rp (row_values (t_rows t) ds) -> Forall2 (fun d r => string_in (s_heap s) d (r_data r)) ds (t_rows t) ->
  in_range t -> forall n fuel i, length (t_rows t) - i = n -> i <= length (t_rows t) -> n < fuel ->
  follows R (fun _ _ => False) (fun (_ _ : unit) s' => s' = s) (table_dump verbose i (skipn i (t_rows t)))
   (wrounds fuel (fun i =>
    let$ length := int_at p T_length in
    if (i <? length)%Z then
      let$ rows := c_rows p in
      let$ k := c_row_key rows i in
      let$ _ :=
        (if (k =? 0)%N then
           if verbose then c_print Stdout (line (bs "index: " ++ dec (Z.to_N i) ++ bs ", empty")) else wret tt
         else
           let$ data := c_row_data rows i in
           let$ data := deref data in
           let$ d := bytes (c_read data) in
           c_print Stdout (line (bs "index: " ++ dec (Z.to_N i) ++ bs ", key: " ++ code_lower k ++ bs ", data: " ++ d))) in
      wret (inl (i + 1)%Z)
    else wret (inr tt)) (Z.of_nat i) s).
Proof.
  intros CP CR F (Pos & Le & Us & Md & Mk & K & Mx). pose proof (Forall2_len _ _ _ F) as L. induction n as [|n IH]; intros fuel i E Li Lt; (destruct fuel as [|fuel]; [lia|]); cbn [wrounds];
    rewrite wbind_assoc; step (int_at_ok _ _ _ 0 _ CP eq_refl); rewrite of_nat_ltb.
  - replace (i <? length (t_rows t)) with false by (symmetry; apply Nat.ltb_ge; lia). rewrite wbind_ret.
    rewrite skipn_all2 by lia. now apply follows_value.
  - assert (I : i < length (t_rows t)) by lia. pose proof I as I'. apply Nat.ltb_lt in I' as ->.
    rewrite wbind_assoc. step (rows_ok s p _ rp CP eq_refl). rewrite wbind_assoc. step (row_key_ok s rp (t_rows t) ds CR L K i I).
    pose proof (nth_row (t_rows t) i I) as NR.
    destruct (skipn i (t_rows t)) as [|r rest] eqn:Sk.
    { apply (f_equal (@length _)) in Sk. rewrite skipn_length in Sk. cbn in Sk. lia. }
    destruct (skipn_nth _ _ _ _ Sk) as (Nr & Rest). rewrite NR in Nr. injection Nr as Nr. rewrite Nr.
    cbn [table_dump]. rewrite wbind_assoc. rewrite <- Z_nat_N, Nat2Z.id.
    assert (Next : follows R (fun _ _ => False) (fun (_ _ : unit) s' => s' = s) (table_dump verbose (S i) rest) (wrounds fuel (fun i =>
    let$ length := int_at p T_length in
    if (i <? length)%Z then
      let$ rows := c_rows p in
      let$ k := c_row_key rows i in
      let$ _ :=
        (if (k =? 0)%N then
           if verbose then c_print Stdout (line (bs "index: " ++ dec (Z.to_N i) ++ bs ", empty")) else wret tt
         else
           let$ data := c_row_data rows i in
           let$ data := deref data in
           let$ d := bytes (c_read data) in
           c_print Stdout (line (bs "index: " ++ dec (Z.to_N i) ++ bs ", key: " ++ code_lower k ++ bs ", data: " ++ d))) in
      wret (inl (i + 1)%Z)
    else wret (inr tt)) (Z.of_nat i + 1)%Z s)).
    { replace (Z.of_nat i + 1)%Z with (Z.of_nat (S i)) by lia. rewrite <- Rest. replace (i + 1) with (S i) by lia. apply IH; lia. }
    destruct (r_key r =? 0)%N eqn:Ez.
    + destruct verbose.
      * apply follows_print. rewrite wbind_ret. exact Next.
      * rewrite wbind_ret, wbind_ret, tbind_done. exact Next.
    + assert (Ex : exists d, nth_error ds i = Some d /\ string_in (s_heap s) d (r_data r)).
      { destruct (nth_error ds i) as [d|] eqn:Nd; [|apply nth_error_None in Nd; lia]. exists d. split; [reflexivity|].
        assert (Nr' : nth_error (t_rows t) i = Some r) by now rewrite NR, Nr. clear - F Nd Nr'. revert i Nd Nr'. induction F as [|a b l l' S F IH]; intros [|i] Nd Nr; cbn in *; try discriminate; [congruence|eauto]. }
      destruct Ex as (d & Nd & Sd). rewrite wbind_assoc. step (row_data_ok s rp (t_rows t) ds CR L i d Nd).
      destruct (r_data r) as [x|] eqn:Er.
      * destruct d as [d|]; [|contradiction]. destruct Sd as (_ & Sd). rewrite wbind_assoc. step (eq_refl : deref (Some d) s = done (d, s)).
        rewrite wbind_assoc. step (read_same s _ _ Sd). apply follows_print. rewrite wbind_ret. exact Next.
      * exfalso. rewrite Forall_forall in K. assert (Ir : In r (t_rows t)) by (apply (nth_error_In _ i); now rewrite NR, Nr). apply K in Ir as (_ & Z). apply N.eqb_neq in Ez. apply Ez, Z, Er.
Qed.

Lemma dump_ok (R : heap -> N -> Prop) s p t c own verbose : table_at s p t c own ->
  follows R (fun _ _ => False) (fun (_ _ : unit) s' => s' = s) (table_dump verbose 0 (t_rows t)) (c_table_dump p verbose s).
Proof.
  intros (rp & ds & df & CP & CR & F & D & Eo & ND & Ra). unfold c_table_dump, wwhile. change 0%Z with (Z.of_nat 0).
  apply (dump_rounds R s p t c verbose rp ds df CP CR F Ra (length (t_rows t))); try lia.
  pose proof (content_size _ _ _ CR) as Sz. rewrite row_values_length in Sz by exact (Forall2_len _ _ _ F). lia.
Qed.

Lemma figure_ok {A B} (R R' : heap -> N -> Prop) (Q : B -> A -> store_t -> Prop) s p vs label i n pure (k : unit -> wmem A) : content s p vs -> nth_error vs i = Some (Num (Z.of_nat n)) ->
  follows R R' Q pure (k tt s) -> follows R R' Q (let% _ := say Stdout (line (label ++ dec (N.of_nat n))) in pure) (wbind (c_figure p label i) k s).
Proof.
  intros C E F. unfold c_figure. rewrite wbind_assoc. step (int_at_ok s p _ i _ C E). rewrite <- Z_nat_N, Nat2Z.id. now apply follows_print.
Qed.

Lemma stats_ok (R : heap -> N -> Prop) percent s p t n own : table_at s p t (cset n) own ->
  follows R (fun _ _ => False) (fun (_ _ : unit) s' => s' = s) (table_stats percent t n) (c_table_stats percent p s).
Proof.
  intros (rp & ds & df & CP & CR & F & D & Eo & ND & (Pos & Le & Us & Md & Mk & K & Mx)). unfold c_table_stats, table_stats. cbv zeta.
  apply (figure_ok _ _ _ s p _ _ _ _ _ _ CP); [reflexivity|].
  apply (figure_ok _ _ _ s p _ _ _ _ _ _ CP); [reflexivity|].
  step (int_at_ok s p _ 1 _ CP eq_refl). step (int_at_ok s p _ 0 _ CP eq_refl). rewrite !Nat2Z.id. apply follows_print.
  apply (figure_ok _ _ _ s p _ _ _ _ _ _ CP); [reflexivity|].
  apply (figure_ok _ _ _ s p _ _ _ _ _ _ CP); [reflexivity|].
  apply (figure_ok _ _ _ s p _ _ _ _ _ _ CP); [reflexivity|].
  apply (figure_ok _ _ _ s p _ _ _ _ _ _ CP); [reflexivity|].
  apply (figure_ok _ _ _ s p _ _ _ _ _ _ CP); [reflexivity|].
  step (ptr_at_ok s p _ 3 _ CP eq_refl).
  assert (Tx : (match df with Some default => bytes (c_read default) | None => wret (bs "(null)") end) s = done (match t_default t with Some d => d | None => bs "(null)" end, s)).
  { destruct df as [q|], (t_default t) as [x|]; try contradiction; [|reflexivity]. destruct D as (_ & D). exact (read_same s _ _ D). }
  step Tx. apply follows_print. step (int_at_ok s p _ 11 _ CP eq_refl).
  rewrite unsigned_int by exact Mk. eapply follows_done; reflexivity.
Qed.

(** ** One file *)

(** The first time, whatever the file. *)
Lemma first_ok s o first denied : sizeable first -> (Z.of_nat (table_capacity denied) <= int_max)%Z ->
  follows (needs s o first denied) (fun _ _ => False)
    (fun r q s' => match first with
       | Readable contents => exists ds, file_says [] contents ds /\ checked s (room contents) (k_hash o) ds r q s'
       | _ => r = None /\ q = None /\ (forall b, b < length (s_heap s) -> s_words s' b = s_words s b) /\
           exists more, s_heap s' = s_heap s ++ more /\ live more = match first with Locked _ => 2 | _ => 0 end
       end)
    (check_table first (k_hash o)) (c_check_table first denied (if k_hash o then 1 else 0)%Z s).
Proof.
  intros Sz Dn. destruct first as [|message|contents].
  - apply follows_value. splits; auto. exists []. rewrite app_nil_r. auto.
  - unfold c_check_table, check_table. eapply follows_ends; [apply (init_in_memory s _ Dn)| |].
    { intros h k [(-> & ->)|(-> & ->)]; [exists []; rewrite app_nil_r|exists [blank 64]]; eexists; (split; [reflexivity|]); (split; [apply need_locked|]);
        [change (heap_size []) with 0|change (heap_size [blank 64]) with 64]; lia. }
    intros p s1 (-> & T & H1 & Sb & _).
    destruct (hash_in_memory s1 _ _ _ _ (k_hash o) T) as (s1' & Eh & T' & Hh & Sh); [reflexivity|]. step Eh. apply follows_print. apply follows_value. splits; auto.
    + intros b Lb. rewrite Sh, Sb; auto; intros [<-|[<-|[]]]; lia.
    + eexists. split; [rewrite Hh; exact H1|reflexivity].
  - destruct (file_says_one [] contents) as (ds & F & _). cbn [sizeable] in Sz.
    eapply follows_weaken; [apply (check_table_ok s contents ds (k_hash o) denied F)| |easy|].
    + unfold room. pose proof (Nat.div_le_upper_bound (length contents) 6 (length contents) ltac:(lia) ltac:(lia)). unfold int_max in *. lia.
    + intros h k (more & -> & Hs). exists more. eexists. split; [reflexivity|]. split; [apply need_readable, F|lia].
    + intros r q s' X. eauto.
Qed.

(** What is printed at the end, and the freeing *)
Lemma finish_ok (R : heap -> N -> Prop) percent o s0 s t n p own more k : table_at s p t (cset n) own -> t_builtin t = false -> s_heap s = s_heap s0 ++ more ->
  (forall b, In b own -> length (s_heap s0) <= b) -> live more = length own + k -> 
  follows R (fun _ _ => False) (fun (status status' : N) s' => status' = status /\ s_words s' = s_words s /\ exists more', s_heap s' = s_heap s0 ++ more' /\ live more' = k)
   (let% _ := (let% _ := (if k_dump o then table_dump (k_verbose o) 0 (t_rows t) else done tt) in table_stats percent t n) in done 0%N)
   ((let$ _ := (let$ _ := (if k_dump o then c_table_dump p (k_verbose o) else wret tt) in let$ _ := c_table_stats percent p in c_table_free (Some p)) in wret 0%N) s).
Proof.
  intros T Nb H On Lv. rewrite wbind_assoc.
  replace (let% _ := (let% _ := (if k_dump o then table_dump (k_verbose o) 0 (t_rows t) else done tt) in table_stats percent t n) in done 0%N) with
    (let% _ := (if k_dump o then table_dump (k_verbose o) 0 (t_rows t) else done tt) in let% _ := table_stats percent t n in done 0%N).
  2: { destruct (if k_dump o then table_dump (k_verbose o) 0 (t_rows t) else done tt) as [o1 [[]| |]]; try reflexivity. cbn [tbind]. destruct (table_stats percent t n) as [o2 [[]| |]]; cbn; rewrite ?app_nil_r; reflexivity. }
  eapply follows_bind with (Q := fun (_ _ : unit) s' => s' = s).
  - destruct (k_dump o); [exact (dump_ok _ s p t _ own _ T)|now apply follows_value].
  - intros _ _ s' ->. rewrite wbind_assoc. eapply follows_bind; [exact (stats_ok R percent s p t n own T)|]. intros _ _ s' ->.
    destruct (free_in_memory s p t _ own T Nb) as (h' & Fr & Wo & Lf). step Fr. apply follows_value. splits; auto. cbn [s_heap].
    rewrite H in Wo. destruct (without_new own (s_heap s0) more h' On Wo) as (more' & E'). exists more'. split; [exact E'|]. rewrite E', H, !live_app in Lf. lia.
Qed.

Theorem check_file_ok percent o name first second denied s : (k_builtin o = true -> limited al) -> sizeable first -> sizeable second -> (Z.of_nat (table_capacity denied) <= int_max)%Z ->
  follows (needs s o first denied) (fun _ _ => False)
    (fun status status' s' => status' = status /\ leftover s o first second s')
    (check_file percent o name first second) (c_check_file percent o name first second denied s).
Proof.
  intros Lim S1 S2 Dn. unfold c_check_file, check_file. apply follows_print. eapply follows_bind; [exact (first_ok s o first denied S1 Dn)|].
  intros r q s1 X. cbv beta in X.
  (* without a table *)
  assert (Nothing : forall more k, r = None -> q = None -> (forall b, b < length (s_heap s) -> s_words s1 b = s_words s b) -> s_heap s1 = s_heap s ++ more -> live more = k -> blocks_lost o first second k ->
    follows (needs s o first denied) (fun _ _ => False) (fun status status' s' => status' = status /\ leftover s o first second s')
      (let% t := (if k_builtin o then check_table_again second r else done r) in
       let% _ := (match t with Some (t, n) => let% _ := (if k_dump o then table_dump (k_verbose o) 0 (t_rows t) else done tt) in table_stats percent t n | None => done tt end) in done 0%N)
      ((let$ table := (if k_builtin o then let$ new_table := c_check_again second q in let$ _ := c_table_free q in wret new_table else wret q) in
        let$ _ := (match table with Some p => let$ _ := (if k_dump o then c_table_dump p (k_verbose o) else wret tt) in let$ _ := c_table_stats percent p in c_table_free table | None => wret tt end) in wret 0%N) s1)).
  { intros more k -> -> Ws H Lv Lo.
    assert (Fin : follows (needs s o first denied) (fun _ _ => False) (fun (status status' : N) s' => status' = status /\ leftover s o first second s') (done 0%N) (done (0%N, s1))).
    { apply follows_value. split; [reflexivity|]. split; [exact Ws|]. eauto. }
    destruct (k_builtin o); [|exact Fin]. destruct second as [|message|contents]; [exact Fin|..]; apply follows_ub; reflexivity. }
  destruct first as [|message|contents].
  - destruct X as (-> & -> & Ws & more & H & Lv). apply (Nothing more 0); auto. constructor.
  - destruct X as (-> & -> & Ws & more & H & Lv). apply (Nothing more 2); auto. constructor.
  - destruct X as (ds & F & Ws & more & H & X). destruct r as [(t, n)|].
    2: { destruct X as (-> & before & c & x & after & -> & Z & Le & Full & Lv). apply (Nothing more _ eq_refl eq_refl Ws H Lv). now apply (lost_given_up o contents before c x after). }
    destruct X as (p & own & -> & T & On & Nb & Ta & Df & Bl & Zn & Le & Lv & Szm & Txm).
    clear Nothing. destruct (k_builtin o) eqn:Bi.
    + assert (Lr : (Z.of_nat (room contents) + 256 < int_max)%Z).
      { cbn [sizeable] in S1. unfold room. pose proof (Nat.div_mod (length contents) 6 ltac:(lia)). unfold int_max in *. lia. }
      rewrite wbind_assoc. eapply follows_bind.
      { eapply follows_weaken; [exact (again_ok s1 p t n own _ _ ds second (Lim eq_refl) S2 T Ta Lr)| |easy|intros b a s' X; exact X].
        intros h k (more' & -> & Hs). exists (more ++ more'). eexists. split; [now rewrite H, <- app_assoc|]. split; [apply need_readable, F|].
        rewrite Bi, size_app. unfold loading_size. rewrite Szm. unfold copy_room, new_size in Hs. rewrite loader_size_nat, Nat2Z.id, (ta_used _ _ _ _ _ Ta) in Hs.
        destruct (Z.leb_spec (Z.of_nat ((length (entries ds) / 256 + 1) * 256)) 0) as [X|X]; [lia|]. lia. }
      intros r q s2 (Ws2 & more2 & H2 & X).
      assert (T2 : table_at s2 p t (cset n) own).
      { apply (table_at_same s1); [|exact T]. intros b Ib. pose proof (own_old _ _ _ _ _ _ T Ib) as Lb. split; [rewrite H2; now apply nth_error_app1|auto]. }
      destruct (free_in_memory s2 p t _ own T2 Nb) as (h3 & Fr & Wo & Lf). rewrite wbind_assoc. step Fr. rewrite wbind_ret.
      assert (Hs2 : s_heap s2 = s_heap s ++ (more ++ more2)) by now rewrite H2, H, <- app_assoc.
      pose proof Wo as Wo'. rewrite Hs2 in Wo'. destruct (without_new own (s_heap s) (more ++ more2) h3 On Wo') as (more3 & E3).
      assert (Lv3 : live more3 + length own = live more + live more2) by (rewrite E3, Hs2, !live_app in Lf; lia).
      assert (Ws3 : forall b, b < length (s_heap s) -> s_words s2 b = s_words s b).
      { intros b Lb. rewrite Ws2; [auto|]. rewrite H, app_length. lia. }
      destruct r as [(u, n')|].
      * destruct X as (p' & own' & -> & T' & On' & Nb' & Lv' & Nl).
        assert (T3 : table_at (mkStore h3 (s_words s2)) p' u (cset n') own').
        { apply (table_at_same s2); [|exact T']. intros b Ib. split; [|reflexivity]. cbn [s_heap]. rewrite (proj2 Wo b). destruct (in_dec Nat.eq_dec b own) as [J|]; [|reflexivity].
          apply (own_old _ _ _ _ _ _ T) in J. apply On' in Ib. lia. }
        eapply follows_weaken; [apply (finish_ok (needs s o (Readable contents) denied) percent o s (mkStore h3 (s_words s2)) u n' p' own' more3 (replacing (entries ds) + defaults_lost ds) T3 Nb' E3)|auto|auto|].
        -- intros b Ib. apply On' in Ib. rewrite H, app_length in Ib. lia.
        -- lia.
        -- intros st st' s' (-> & Ws' & more' & H' & Lv4). split; [reflexivity|]. split; [intros b Lb; rewrite Ws'; cbn [s_words]; auto|]. exists more', (replacing (entries ds) + defaults_lost ds). splits; auto.
           apply lost_accepted; auto.
      * destruct X as (-> & Lv2). rewrite tbind_done, wbind_ret. apply follows_value. split; [reflexivity|]. split; [exact Ws3|].
        exists more3, (replacing (entries ds) + defaults_lost ds + live more2). splits; [exact E3|lia|]. rewrite Lv2. destruct second as [|message|contents2].
        -- rewrite Nat.add_0_r. apply lost_accepted; auto. discriminate.
        -- rewrite Df. replace (length (row_keys (t_rows t))) with (length (nodup N.eq_dec (map fst (entries ds)))); [now apply lost_copied|].
           destruct (tallied_keys _ _ _ _ _ Ta) as (ND & J). apply Nat.le_antisymm; apply NoDup_incl_length; auto using NoDup_nodup; intros k I; [apply J; now apply nodup_In in I|apply nodup_In, J, I].
        -- rewrite Nat.add_0_r. apply lost_accepted; auto. discriminate.
    + rewrite tbind_done, wbind_ret. eapply follows_weaken; [apply (finish_ok (needs s o (Readable contents) denied) percent o s s1 t n p own more (replacing (entries ds) + defaults_lost ds) T Nb H On)|auto|auto|].
      * rewrite <- Nat.add_assoc in Lv. exact Lv.
      * intros st st' s' (-> & Ws' & more' & H' & Lv'). split; [reflexivity|]. split; [intros b Lb; rewrite Ws'; auto|]. exists more', (replacing (entries ds) + defaults_lost ds). splits; auto.
        apply lost_accepted; auto. congruence.
Qed.

(** ** The program *)

Theorem check_main_ok percent posix args first second denied s :
  (forall o file, asked posix args o file ->
     sizeable (first file) /\ sizeable (second file) /\ (Z.of_nat (table_capacity (denied file)) <= int_max)%Z /\ (k_builtin o = true -> limited al)) ->
  follows (fun h k => exists o file, asked posix args o file /\ needs s o (first file) (denied file) h k) (fun _ _ => False)
    (fun status status' s' => status' = status /\
       ((exists o file, asked posix args o file /\ leftover s o (first file) (second file) s') \/ (forall o file, ~ asked posix args o file) /\ s' = s))
    (check_main percent posix args first second) (c_check_main percent posix args first second denied s).
Proof.
  intros Sz. unfold c_check_main, check_main. destruct (getopt_arguments posix args [] (fun _ => eq_refl)) as (ls & fs & A & ->). cbn [app].
  destruct (check_getopt_wished ls (mkCheck false false true false)) as (ls1 & ls2 & E & F & R).
  assert (Un : forall o file, asked posix args o file -> Forall harmless ls /\ exists fs', fs = file :: fs').
  { intros o file (ls' & fs' & A' & H & _). destruct (arguments_one _ _ _ _ A _ _ A') as (-> & E'). split; [exact H|]. exists fs'. now symmetry. }
  destruct ls2 as [|c ls2].
  - destruct R as (o & -> & WM). rewrite tbind_done. rewrite app_nil_r in E. subst ls1. unfold wbind at 1. rewrite !tbind_done. destruct fs as [|f fs].
    + apply follows_print, follows_value. split; [reflexivity|]. right. split; [|reflexivity]. intros o' file As. apply Un in As as (_ & fs' & [=]).
    + assert (As : asked posix args o f).
      { exists ls, fs. splits; auto. unfold wished_more in WM. cbn [k_builtin k_dump k_hash k_verbose] in WM. unfold wished. intuition congruence. }
      destruct (Sz _ _ As) as (X1 & X2 & X3 & X4).
      eapply follows_weaken; [exact (check_file_ok percent o f (first f) (second f) (denied f) s X4 X1 X2 X3)|eauto|easy|].
      intros st st' s' (-> & L). split; [reflexivity|]. left. eauto.
  - assert (No : ~ harmless c -> forall o file, ~ asked posix args o file).
    { intros Hc o file As. apply Un in As as (H & _). subst ls. apply Forall_app in H as (_ & H). inversion H. auto. }
    destruct R as [(-> & ->)|(N1 & N2 & ->)]; unfold wbind; cbn [tbind done quietly fst snd app].
    + eapply follows_done; [reflexivity|]. split; [reflexivity|]. right. split; [|reflexivity]. apply No. unfold harmless. simpl. intuition discriminate.
    + eapply follows_done; [reflexivity|]. split; [reflexivity|]. right. auto.
Qed.

Lemma asked_one posix args o file o' file' : asked posix args o file -> asked posix args o' file' -> o' = o /\ file' = file.
Proof.
  intros (ls & fs & A & _ & W) (ls' & fs' & A' & _ & W'). destruct (arguments_one _ _ _ _ A _ _ A') as (-> & [= -> ->]). split; [|reflexivity].
  unfold wished in *. destruct o as [b d l v], o' as [b' d' l' v']. cbn [k_builtin k_dump k_hash k_verbose] in *.
  assert (X : forall (a b : bool) P, (a = true <-> P) -> (b = true <-> P) -> b = a) by (intros [] [] P; intuition).
  assert (Y : forall (a b : bool) P, (a = false <-> P) -> (b = false <-> P) -> b = a) by (intros [] [] P; intuition).
  f_equal; [eapply X|eapply X|eapply Y|eapply X]; intuition eauto.
Qed.

Lemma check_main_no_exit percent posix args first second c : snd (check_main percent posix args first second) <> Exit c.
Proof.
  intros P. unfold check_main in P. destruct (getopt_arguments posix args [] (fun _ => eq_refl)) as (ls & fs & A & G). rewrite G in P. cbn [app] in P.
  destruct (check_getopt_wished ls (mkCheck false false true false)) as (ls1 & ls2 & E & F & R).
  destruct ls2 as [|x ls2].
  - destruct R as (o & R & WM). rewrite R, tbind_done in P. destruct fs as [|f fs]; [discriminate P|]. now apply check_ends in P.
  - destruct R as [(-> & R)|(N1 & N2 & R)]; rewrite R in P; discriminate P.
Qed.

(** Undefined behaviour: only the null pointer known from lists. *)
Theorem check_main_undefined percent posix args first second denied s why :
  (forall o file, asked posix args o file ->
     sizeable (first file) /\ sizeable (second file) /\ (Z.of_nat (table_capacity (denied file)) <= int_max)%Z /\ (k_builtin o = true -> limited al)) ->
  snd (c_check_main percent posix args first second denied s) = UB why ->
  why = NullDeref /\ exists o file, asked posix args o file /\ k_builtin o = true /\ second file <> Absent /\
    (forall contents, first file = Readable contents -> parse_table [] contents = Ok None).
Proof.
  intros Sz U. pose proof (check_main_ok percent posix args first second denied s Sz) as F.
  assert (P : snd (check_main percent posix args first second) = UB why).
  { destruct F as [said b a s' E X|said c E|said w E|said said' h n message E1 E2 E3|h n message t E []]; try discriminate U. cbn [snd] in U. injection U as <-. now rewrite E. }
  clear F U Sz. unfold check_main in P. destruct (getopt_arguments posix args [] (fun _ => eq_refl)) as (ls & fs & A & G). rewrite G in P. cbn [app] in P.
  destruct (check_getopt_wished ls (mkCheck false false true false)) as (ls1 & ls2 & E & F & R).
  destruct ls2 as [|c ls2].
  - destruct R as (o & R & WM). rewrite R, tbind_done in P. rewrite app_nil_r in E. subst ls1. destruct fs as [|f fs]; [discriminate P|].
    apply check_ends in P as (-> & X). split; [reflexivity|]. exists o, f. split; [|exact X].
    exists ls, fs. splits; auto. unfold wished_more in WM. cbn [k_builtin k_dump k_hash k_verbose] in WM. unfold wished. intuition congruence.
  - destruct R as [(-> & R)|(N1 & N2 & R)]; rewrite R in P; discriminate P.
Qed.

Lemma bytes_needed_one o denied f n n' : bytes_needed o denied f n -> bytes_needed o denied f n' -> n' = n.
Proof.
  intros X. destruct X as [|message|contents ds F]; intros Y; inversion Y as [|m|c d G]; subst; try reflexivity.
  destruct (file_says_one [] contents) as (e & _ & U). now rewrite (U _ F), (U _ G).
Qed.

(** With enough memory, all that is checked on lists is checked. *)
Theorem check_main_enough percent posix args first second denied s o file need :
  asked posix args o file -> (k_builtin o = true -> limited al) -> bytes_needed o (denied file) (first file) need ->
  sizeable (first file) -> sizeable (second file) -> (Z.of_nat (table_capacity (denied file)) <= int_max)%Z ->
  (forall h k, heap_size h + N.to_nat k <= heap_size (s_heap s) + need -> refusal_of h k = None) ->
  fst (c_check_main percent posix args first second denied s) = fst (check_main percent posix args first second) /\
  match snd (check_main percent posix args first second) with
  | Ok status => exists s', snd (c_check_main percent posix args first second denied s) = Ok (status, s') /\ leftover s o (first file) (second file) s'
  | UB why => snd (c_check_main percent posix args first second denied s) = UB why
  | Exit _ => False
  end.
Proof.
  intros As Nb Bn S1 S2 S3 En.
  assert (Sz : forall o file, asked posix args o file ->
     sizeable (first file) /\ sizeable (second file) /\ (Z.of_nat (table_capacity (denied file)) <= int_max)%Z /\ (k_builtin o = true -> limited al)).
  { intros o' file' As'. destruct (asked_one _ _ _ _ _ _ As As') as (-> & ->). splits; auto. }
  pose proof (check_main_ok percent posix args first second denied s Sz) as F.
  assert (Nr : forall h k, (exists o file, asked posix args o file /\ needs s o (first file) (denied file) h k) -> refusal_of h k = None).
  { intros h k (o' & file' & As' & more & need' & -> & Bn' & L). destruct (asked_one _ _ _ _ _ _ As As') as (-> & ->).
    apply En. rewrite size_app. assert (need' = need); [|lia]. eapply bytes_needed_one; eauto. }
  destruct (follows_enough _ _ _ _ F Nr) as (E1 & E2). split; [exact E1|].
  destruct (snd (check_main percent posix args first second)) as [b|w|c] eqn:Ep.
  - destruct E2 as (a & s' & E2 & -> & X). exists s'. split; [exact E2|]. destruct X as [(o' & file' & As' & L)|(No & _)]; [|destruct (No _ _ As)].
    destruct (asked_one _ _ _ _ _ _ As As') as (-> & ->). exact L.
  - exact E2.
  - exact (check_main_no_exit percent posix args first second c Ep).
Qed.

End check.
