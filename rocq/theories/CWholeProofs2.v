(** * Proofs about the whole program in memory *)

From Verif Require Import Base BaseFacts Stdio Filelist Options Table Filter Spoof ConfigSpec ConfigLex ConfigParse ConfigLoad ConfigLoadSpec Prog ProgFacts Warnings File FileSpec FilelistProofs Inline Startup Main MainSpec MainProofs WarningsSpec WarningsProofs StartSpec StopProofs
  Mem MemSpec MemFacts CFileProofs Words WordsSpec WordsFacts CTableProofs CTableProofs2 FilesSpec CFilelist CConfig LinkedSpec CConfigProofs
  CConfigProofs2 CConfigProofs5 CConfigProofs7 CLoad CLoadSpec CLoadProofs4 CLoadProofs5 CReview CReviewSpec CReviewProofs CReviewProofs2 CRun CRunSpec CRunProofs3 COptions COptionsSpec COptionsProofs CDump CDumpProofs CDumpProofs2
  CWork CWorkSpec CWorkSim CWorkProofs CWorkProofs2 CWorkProofs3 CTame CWhole CWholeSpec CWholeProofs.

Local Open Scope nat_scope.

Section whole.

Context {al : allocator} (Lim : limited al).
Context (literal : str -> ptr) (static : static_table -> ptr) (denied_size : str -> nat) (sys : system).
Context (Dec : decent sys denied_size).

(** ** The tables are loaded *)

Definition set_for_work (s : store_t) (w : ptr) (ignore : option ptr) (files : option (list str)) (sown iown : list nat) (fss : list (list nat)) (sq : sequence_t) (s2 : store_t) : Prop :=
  Forall familiar (s_filters sq) /\ touches (concat fss) s s2 /\ ignored_at s2 ignore files iown /\
  exists own, ready_at s2 w sq 0 own /\ NoDup (own ++ iown) /\ forall b, In b own -> In b (sown ++ concat fss) \/ length (s_heap s) <= b.

Lemma review_step s ps qs w sq ignore files sown iown fss : sequences_at s ps qs None sown fss -> ignored_at s ignore files iown -> picks ps qs w sq -> NoDup (sown ++ iown) ->
  Forall (fun l => NoDup l) fss -> (forall b, In b (sown ++ iown) -> ~ In b (concat fss)) -> Forall familiar (s_filters sq) ->
  statics_in s static (concat fss) -> literals_in (s_heap s) literal review_literals ->
  follows (beyond s) never (fun sq' _ s2 => set_for_work s w ignore files sown iown fss sq' s2)
    (sequence_review_says (e_datadir (m_env sys)) (table_at_says sys) sq) (c_sequence_review literal static denied_size sys w s).
Proof.
  intros A G X NDs NDf Ap Fam St Li.
  destruct (sequences_pick _ _ _ _ _ _ _ A X (NoDup_l _ _ NDs)) as (next & n & src & fps & fown & Cw & Hn & Hs & Fl & If & NDw & Inc).
  assert (Ifc : forall b, In b fown -> In b (concat fss)) by (intros b I; apply in_concat; eauto).
  assert (St1 : statics_in s static fown).
  { intros x. destruct (St x) as (cs & blocks & T & D). exists cs, blocks. split; [exact T|]. intros b I J. exact (D b I (Ifc b J)). }
  rewrite Forall_forall in NDf.
  pose proof (review_in_memory Lim literal static denied_size sys Dec s w (Adr next) (Adr (Some n)) (Adr src) fps (s_filters sq) fown Cw Fl (NDf _ If) Fam St1 Li) as Rv.
  assert (Ps : sequence_review_says (e_datadir (m_env sys)) (table_at_says sys) sq =
               let% fs := review_filters_says (e_datadir (m_env sys)) (table_at_says sys) (s_filters sq) in done (mkSequence (s_name sq) fs (s_source sq))) by reflexivity.
  rewrite Ps. apply follows_with in Rv. eapply follows_map; [exact Rv|]. intros fs' [] s2 ((M & W & own' & Rd & ND' & On) & Ok'). cbv beta in *.
  assert (T : touches fown s s2) by now split.
  assert (Oc : forall b, In b (sown ++ iown) -> b < length (s_heap s)).
  { intros b I. apply there_old. apply in_app_iff in I as [I|I]; [apply (sequences_there _ _ _ _ _ _ A), in_app_iff; now left|exact (ignored_there _ _ _ _ G _ I)]. }
  assert (Sm : forall b, In b (sown ++ iown) -> same_at s s2 b).
  { intros b I. apply (touches_at _ _ _ _ T (Oc b I)). intros J. exact (Ap b I (Ifc b J)). }
  assert (Onew : forall b, In b (sown ++ iown) -> ~ In b own').
  { intros b I J. destruct (On b J) as [K|K]; [exact (Ap b I (Ifc b K))|]. apply Oc in I. lia. }
  assert (Is : forall b, In b sown -> In b (sown ++ iown)) by (intros b I; apply in_app_iff; now left).
  assert (Ii : forall b, In b iown -> In b (sown ++ iown)) by (intros b I; apply in_app_iff; now right).
  unfold set_for_work. cbn [s_filters]. splits.
  - exact (review_familiar _ _ _ _ Ok' Fam).
  - split; [exact M|]. intros b L Nb. apply W; auto.
  - apply (ignored_same s); [|exact G]. intros b I. auto.
  - exists (p_block w :: block_list [Some n; src] ++ own'). splits.
    + exists next, n, src, fps, own'. cbn [s_name s_source s_filters]. splits; auto.
      * apply (content_at s); [|exact Cw]. apply Sm, Is, Inc. now left.
      * exact (touches_string _ _ _ _ _ T Hn).
      * exact (touches_string _ _ _ _ _ T Hs).
      * rewrite app_comm_cons. apply NoDup_apart_app; auto.
    + rewrite app_comm_cons. apply NoDup_apart_app; [apply NoDup_apart_app; auto|exact (NoDup_r _ _ NDs)|].
      intros b I J. apply in_app_iff in I as [I|I]; [exact (NoDup_apart _ _ _ NDs (Inc b I) J)|exact (Onew b (Ii b J) I)].
    + intros b I. rewrite app_comm_cons in I. apply in_app_iff in I as [I|I]; [left; apply in_app_iff; left; auto|]. destruct (On b I) as [K|K]; [left; apply in_app_iff; right; auto|now right].
Qed.

(** ** After the configuration *)

Context (s0 : store_t) (argv : list str) (args : list ptr) (detox_sequence : option ptr) (fuel : nat).
Hypothesis Start : at_start literal static sys argv args detox_sequence s0.

Definition ended (tr : list event) (a : N * store_t) (b : N) : Prop := fst a = b /\ exists new, s_heap (snd a) = s_heap s0 ++ new.

Definition rest (po pc : ptr) : sprog N :=
  let# _ := inner (c_choose literal pc po) in
  let# list_sequences := inner (int_at po OP_list_sequences) in
  if negb (list_sequences =? 0)%Z then
    let# text := inner (c_dump_config_file pc po) in
    let# _ := sprint Stdout text in
    sstop (StopExit EXIT_SUCCESS)
  else
    let# sequence_to_use := inner (ptr_at po OP_sequence_to_use) in
    match sequence_to_use with
    | None =>
      let# _ := sprint Stderr (bs "detox: no sequence to work with" ++ [eol]) in
      sstop (StopExit EXIT_FAILURE)
    | Some sequence_to_use =>
      let# _ := inner (c_sequence_review literal static denied_size sys sequence_to_use) in
      w_do_work literal fuel (m_platform sys) po
    end.

Lemma longer_heap (h h' : heap) : (forall b, b < length h -> nth_error h' b = nth_error h b) -> length h <= length h' -> exists more, h' = h ++ more.
Proof.
  revert h'. induction h as [|x h IH]; intros h' E L; [now exists h'|]. destruct h' as [|y h']; [cbn in L; lia|].
  pose proof (E 0 ltac:(cbn; lia)) as E0. cbn in E0. injection E0 as ->. destruct (IH h') as (more & ->).
  - intros b Lb. exact (E (S b) ltac:(cbn; lia)).
  - cbn in L. lia.
  - now exists more.
Qed.

Lemma listed_ignored s ignore c ign iown : ignored_at s ignore (cf_ignore c) iown -> ignore_list c = Ok ign -> listed s ignore ign iown.
Proof.
  intros G E. destruct (ignore_list_ok c) as (ign' & E' & U & C & I). rewrite E in E'. injection E' as <-. unfold ignore_list in E. unfold ignored_at in G. unfold listed.
  destruct (cf_ignore c) as [l|].
  - destruct (put_files filelist_init l) as [fl| |]; try discriminate. cbn in E. injection E as <-. destruct ignore as [p|]; [|contradiction].
    split; [exact U|]. destruct G as (max & L & _). exists max. now rewrite C, I.
  - injection E as <-. now destruct ignore.
Qed.

Lemma work_tail o ign : ogood (o_files o) -> cursor (o_files o) = 0 ->
  pbind (lift (all_files (S (filelist_count (o_files o))) (o_files o))) (fun files =>
    if negb (o_is_inline_mode o) then let! _ := process_arguments fuel o files ign in Ret EXIT_SUCCESS
    else if 0 <? filelist_count (o_files o) then let! _ := inline_arguments o files in Ret EXIT_SUCCESS
    else let! _ := parse_inline None o in Ret EXIT_SUCCESS) = CWorkSpec.work fuel o (items (o_files o)) ign.
Proof.
  intros G C. pose proof (count_items (o_files o) G) as Ec. rewrite Ec.
  rewrite (all_files_good (items (o_files o)) (length (items (o_files o))) 0 (o_files o)); auto; try lia. rewrite skipn_O. cbn [lift pbind]. unfold CWorkSpec.work.
  destruct (items (o_files o)); reflexivity.
Qed.

Lemma rest_ok tr o po s1 c pc s2 lost room : snd (says_options sys argv) = Ok o -> readable sys o -> gives_options s0 argv o po s1 ->
  snd (config_file_load_says (m_env sys) (o_check_config_file o)) = Ok c -> loads s1 lost room c pc s2 -> bounded (s_heap s2) ->
  wsim (requested sys argv s0) (worn_out sys argv) ended tr (rest po pc s2) (main_rest fuel sys o c).
Proof.
  intros Eo Rd (K1 & L1 & _ & oown & (name & check & files & fown & CO & Tn & Tc & Lf & Cf & -> & NDo) & On) Ec (own & Ld & Ev & _) Bd.
  destruct Start as (_ & _ & Li & St & _).
  pose proof (load_known _ _ _ Ec) as Kn. pose proof (load_count _ _ _ Rd Ec) as Ct.
  pose proof Ld as (cown & fss & (ps & ignore & sown & iown & C & A & G & Ecown) & ND & NDc & NDf & Ap & Iff).
  destruct Ev as (K2 & Ow & L2 & _).
  assert (Inc : forall b, In b (p_block pc :: sown ++ iown) -> In b own) by (intros b I; apply Iff, in_app_iff; left; now rewrite Ecown).
  assert (Ifs : forall b, In b (concat fss) -> In b own) by (intros b I; apply Iff, in_app_iff; now right).
  assert (New : forall b, In b own -> length (s_heap s1) <= b) by (intros b I; destruct (Ow b I) as [[]|]; auto).
  rewrite Ecown in NDc. apply NoDup_cons_iff in NDc as (Np & NDc). apply NoDup_cons_iff in NDo as (Nfo & NDfo).
  assert (S12 : forall b, b < length (s_heap s1) -> same_at s1 s2 b) by (intros b L; apply K2; auto).
  assert (S02 : forall b, b < length (s_heap s0) -> same_at s0 s2 b).
  { intros b L. destruct (K1 b L) as (E1 & E2), (S12 b ltac:(lia)) as (E3 & E4). split; congruence. }
  assert (Po1 : p_block po < length (s_heap s1)) by exact (there_old _ _ (content_there _ _ _ CO)).
  assert (Po0 : length (s_heap s0) <= p_block po) by (apply On; now left).
  assert (Npo : ~ In (p_block po) own) by (intros I; apply New in I; lia).
  assert (CO2 : content s2 po (option_values o None None name check files)) by (apply (content_at s1); auto).
  assert (Keep : forall p x, cstr_at (s_heap s1) p x -> cstr_at (s_heap s2) p x).
  { intros p x Cx. apply (cstr_same (s_heap s1)); [|exact Cx]. apply S12. exact (cstr_live _ _ _ Cx). }
  assert (Keep0 : forall p x, cstr_at (s_heap s0) p x -> cstr_at (s_heap s2) p x).
  { intros p x Cx. apply (cstr_same (s_heap s0)); [|exact Cx]. apply S02. exact (cstr_live _ _ _ Cx). }
  assert (Tn2 : text_in (s_heap s2) name (o_sequence_name o)) by (destruct name, (o_sequence_name o); cbn in *; auto).
  assert (Li2 : literals_in (s_heap s2) literal (the_literals ++ review_literals ++ run_literals)) by (intros x I; apply Keep0, Li, I).
  assert (Ld2 : cstr_at (s_heap s2) (literal (bs "default")) (bs "default")) by (apply Li2, in_app_iff; right; now left).
  destruct (ignore_list_ok c) as (ign & Ei & Ui & Ci & Ii).
  assert (Dk : forall m, main_rest fuel sys o c = m -> wsim (requested sys argv s0) (worn_out sys argv) ended tr (rest po pc s2) m -> wsim (requested sys argv s0) (worn_out sys argv) ended tr (rest po pc s2) (main_rest fuel sys o c)) by (intros m ->; auto).
  eapply Dk; [unfold main_rest; rewrite Ei; cbn [lift pbind]; reflexivity|]. clear Dk. cbv zeta. unfold rest.
  destruct (choose_ok literal s2 pc c po o None None name check files ps ignore sown fss C A (NoDup_l _ _ NDc) Ld2 CO2 Tn2) as (which & s3 & E3 & H3 & W3 & CO3 & Mk & Pk).
  { intros E. apply Npo, Inc. now left. }
  { intros I. apply Npo, Inc. right. apply in_app_iff. now left. }
  { intros I. apply Npo. auto. }
  eapply wsim_inner; [exact E3|].
  eapply wsim_inner; [exact (int_at_ok s3 po _ 3 _ CO3 eq_refl : int_at po OP_list_sequences s3 = _)|].
  destruct (o_list_sequences o) eqn:El; cbn [negb Z.eqb].
  - destruct (dump_defined _ _ _ (chosen_position (cf_sequences c) (o_sequence_name o)) (0 <? o_verbose o)%N Ec) as (text & Et). rewrite Et. cbn [lift pbind].
    pose proof (list_in_memory literal s2 pc c own po o None None name check files Ld Kn Ct Ld2 CO2 Tn2 Npo) as D. rewrite Et in D. destruct D as (which' & ignore' & s' & D & _).
    unfold c_list_sequences in D. rewrite (wbind_done _ _ _ _ _ E3) in D. eapply wsim_inner; [exact D|]. apply wsim_call. intros r _. cbn. apply wsim_stop.
  - assert (Sm3 : forall b, b <> p_block po -> same_at s2 s3 b) by (intros b Nb; split; [now rewrite H3|now apply W3]).
    eapply wsim_inner; [exact (ptr_at_ok s3 po _ 7 _ CO3 eq_refl : ptr_at po OP_sequence_to_use s3 = _)|].
    destruct (sequence_choose_default (cf_sequences c) (o_sequence_name o)) as [sq|] eqn:Ech, which as [w|]; try contradiction; [|apply wsim_call; intros r _; cbn; apply wsim_stop].
    assert (Fam : Forall familiar (s_filters sq)).
    { destruct Pk as (? & ? & ? & ? & _ & E & _). rewrite E in Kn. apply Forall_app in Kn as (_ & Kn). now apply Forall_cons_iff in Kn. }
    assert (A3 : sequences_at s3 ps (cf_sequences c) None sown fss).
    { apply (sequences_same s2); [| |exact A]; intros b I; apply Sm3; intros ->; apply Npo; auto. apply Inc. right. apply in_app_iff. now left. }
    assert (G3 : ignored_at s3 ignore (cf_ignore c) iown).
    { apply (ignored_same s2); [|exact G]. intros b I. apply Sm3. intros ->. apply Npo, Inc. right. apply in_app_iff. now right. }
    assert (S03 : forall b, b < length (s_heap s0) -> same_at s0 s3 b).
    { intros b L. destruct (S02 b L) as (X1 & X2), (Sm3 b ltac:(lia)) as (X3 & X4). split; congruence. }
    assert (St3 : statics_in s3 static (concat fss)).
    { intros x. destruct (St x) as (cs & blocks & T & _). exists cs, blocks. split.
      - apply (table_seen_same s0); [|exact T]. intros b I. apply S03. exact (seen_old _ _ _ _ _ _ T I).
      - intros b I J. pose proof (seen_old _ _ _ _ _ _ T I). apply Ifs, New in J. lia. }
    assert (Li3 : literals_in (s_heap s3) literal (the_literals ++ review_literals ++ run_literals)) by (rewrite H3; exact Li2).
    assert (Ap3 : forall b, In b (sown ++ iown) -> ~ In b (concat fss)) by (intros b I; apply Ap; rewrite Ecown; now right).
    destruct (longer_heap (s_heap s0) (s_heap s3)) as (m03 & M03); [intros b L; now apply S03|rewrite H3; lia|].
    eapply wsim_follows.
    + apply (review_step s3 ps (cf_sequences c) w sq ignore (cf_ignore c) sown iown fss); auto. intros x I. apply Li3, in_app_iff. right. apply in_app_iff. now left.
    + intros h n (more & ->). right. right. exists (m03 ++ more). now rewrite M03, app_assoc.
    + intros h n message _ [].
    + intros sq' [] s4 Esq Es4 (Fam4 & T4 & G4 & sown4 & R4 & ND4 & In4).
      assert (Bd4 : bounded (s_heap s4)) by (apply (tame_bounded (s_heap s3)); [exact (calm_review Lim literal static denied_size sys w s3 _ _ _ Es4)|now rewrite H3]).
      destruct T4 as ((m34 & M34) & W4). pose proof (conj (ex_intro _ m34 M34) W4 : touches (concat fss) s3 s4) as T4.
      assert (CO4 : content s4 po (option_values o (Some w) ignore name check files)).
      { apply (content_at s3); [|exact CO3]. apply (touches_at _ _ _ _ T4); [rewrite H3; lia|]. intros I. apply Npo. auto. }
      cbv zeta. set (o2 := with_sequence (Some sq') ign o).
      change (wsim (requested sys argv s0) (worn_out sys argv) ended (tr ++ map heard (fst (sequence_review_says (e_datadir (m_env sys)) (table_at_says sys) sq)))
        (w_do_work literal fuel (m_platform sys) po s4)
        (pbind (lift (all_files (S (filelist_count (o_files o2))) (o_files o2))) (fun files =>
           if negb (o_is_inline_mode o2) then let! _ := process_arguments fuel o2 files ign in Ret EXIT_SUCCESS
           else if 0 <? filelist_count (o_files o2) then let! _ := inline_arguments o2 files in Ret EXIT_SUCCESS
           else let! _ := parse_inline None o2 in Ret EXIT_SUCCESS))).
      rewrite work_tail; [|change (o_files o2) with (o_files o)..|exact Cf].
      2:{ unfold listed in Lf. destruct files, (o_files o); try contradiction; [|exact I]. apply usable_good. now destruct Lf. }
      unfold w_do_work. eapply wsim_inner.
      { rewrite <- (says_platform _ _ _ Eo). step (flags_ok o s4 po _ _ _ _ _ CO4). step (ptr_at_ok s4 po _ 7 _ CO4 eq_refl : ptr_at po OP_sequence_to_use s4 = _).
        step (ptr_at_ok s4 po _ 8 _ CO4 eq_refl : ptr_at po OP_files_to_ignore s4 = _). step (ptr_at_ok s4 po _ 11 _ CO4 eq_refl : ptr_at po OP_files s4 = _). reflexivity. }
      cbv beta iota. change (flags_of o) with (flags_of o2). rewrite work_flags.
      assert (Su : set_up literal s4 (Some w) ignore files sq' ign (o_files o) 0 sown4 iown fown).
      { assert (Fo1 : forall b, In b fown -> length (s_heap s0) <= b < length (s_heap s1)).
        { intros b I. split; [apply On; now right|]. unfold listed in Lf. destruct files as [fp|], (o_files o) as [fl|]; try contradiction; [|subst fown; destruct I].
          destruct Lf as (_ & max & Lf). exact (there_old _ _ (list_there _ _ _ _ _ _ Lf b I)). }
        unfold set_up. splits.
        - exists w. auto.
        - exact Fam4.
        - intros x I. apply (touches_cstr _ _ _ _ _ T4). apply Li3, in_app_iff. right. apply in_app_iff. now right.
        - exact (listed_ignored _ _ _ _ _ G4 Ei).
        - apply (listed_same s1); [|exact Lf]. intros b I. destruct (Fo1 b I) as (X & Y). destruct (S12 b Y) as (X1 & X2), (Sm3 b ltac:(intros ->; auto)) as (X3 & X4).
          destruct (touches_at _ _ _ b T4) as (X5 & X6); [rewrite H3; lia|intros J; apply Ifs, New in J; lia|]. split; congruence.
        - rewrite app_assoc. apply NoDup_apart_app; auto. intros b I J. destruct (Fo1 b J) as (X & Y). apply in_app_iff in I as [I|I].
          + destruct (In4 b I) as [I4|I4]; [|rewrite H3 in I4; lia]. apply in_app_iff in I4 as [I4|I4]; [|apply Ifs, New in I4; lia].
            pose proof (New b (Inc b (or_intror (proj2 (in_app_iff _ _ _) (or_introl I4))))). lia.
          + pose proof (New b (Inc b (or_intror (proj2 (in_app_iff _ _ _) (or_intror I))))). lia. }
      pose proof (work_sim Lim literal s4 (Some w) ignore files sq' ign (o_files o) 0 sown4 iown fown fuel o2 eq_refl Su Cf Bd4) as Ws.
      rewrite <- (app_nil_r (tr ++ _)). eapply wsim_after with (over := CWorkSpec.worn (o_platform o2) sq' 0); [eapply wsim_mono; [exact Ws| |intros tr' X; exact X]| |].
      * intros h n (more & ->). right. right. exists (m03 ++ m34 ++ more). now rewrite M34, M03, !app_assoc.
      * intros tr' X. exists o, c, sq'. splits; auto; [|apply worn_after; change (o_platform o2) with (o_platform o) in X; now rewrite <- (says_platform _ _ _ Eo)].
        unfold prepare_says. destruct (config_file_load_says (m_env sys) (o_check_config_file o)) as [t r]. cbn [snd] in Ec. rewrite Ec. cbn [tbind]. rewrite Ech.
        destruct (sequence_review_says _ _ sq) as [t' r']. cbn [snd] in Esq. rewrite Esq. reflexivity.
      * intros tr' a b (E & (new & Hn & _) & _). split; [exact E|]. exists (m03 ++ m34 ++ new). now rewrite Hn, M34, M03, !app_assoc.
Qed.

(** ** The whole *)

Hypothesis Man : manageable sys argv denied_size.
Hypothesis Heed : heedful al sys argv s0.

Lemma main_sim : wsim (requested sys argv s0) (worn_out sys argv) ended [] (w_main literal static denied_size fuel sys args detox_sequence s0) (Main.main fuel sys argv).
Proof.
  pose proof Start as (FA & TD & Li & St & Bd0). destruct Man as (Mo & _ & Re). rewrite main_eq. unfold w_main. cbv zeta.
  eapply wsim_follows.
  - exact (options_in_memory (m_platform sys) (e_getenv (m_env sys)) (m_package sys) argv args detox_sequence s0 FA TD Mo).
  - intros h n W. now left.
  - intros h n message _ [].
  - intros o po s1 Eo E1 Gv. pose proof (Re o Eo) as Rd.
    assert (Bd1 : bounded (s_heap s1)) by (apply (tame_bounded (s_heap s0)); [exact (calm_options Lim _ _ _ _ s0 _ _ _ E1)|exact Bd0]).
    pose proof Gv as (K1 & L1 & Sz & oown & (name & check & files & fown & CO & Tn & Tc & Lf & Cf & _) & On).
    assert (Keep : forall p x, cstr_at (s_heap s0) p x -> cstr_at (s_heap s1) p x).
    { intros p x Cx. apply (cstr_same (s_heap s0)); [|exact Cx]. apply K1. exact (cstr_live _ _ _ Cx). }
    assert (Em : (let$ check_config_file := ptr_at po OP_check_config_file in c_config_file_load literal (m_env sys) check_config_file) s1 = c_config_file_load literal (m_env sys) check s1)
      by (step (ptr_at_ok s1 po _ 10 _ CO eq_refl : ptr_at po OP_check_config_file s1 = _); reflexivity).
    assert (Wi : forall h n, within s1 (reading_takes sys o) h n -> within s0 (options_room argv + reading_takes sys o) h n) by (unfold within; intros h n W; lia).
    assert (F : follows (within s1 (reading_takes sys o)) (fun h n => within s1 (reading_takes sys o) h n /\ exists path, In path (to_read sys o) /\ for_text (contents_of (e_files (m_env sys) path)) n)
                  (fun c p s' => exists lost room, loads s1 lost room c p s') (config_file_load_says (m_env sys) (o_check_config_file o)) (c_config_file_load literal (m_env sys) check s1)).
    { unfold reading_takes, to_read. unfold readable in Rd. destruct (o_check_config_file o) as [path|], check as [q|]; cbn in Tc; try contradiction.
      - eapply follows_weaken; [exact (named_ok literal s1 (m_env sys) q path Tc Rd)|auto| |eauto]. intros h n (W & T). split; [exact W|]. exists path. split; [now left|exact T].
      - eapply follows_weaken; [exact (search_ok literal s1 (m_env sys) (fun x I => Keep _ _ (Li x (proj2 (in_app_iff _ _ _) (or_introl I)))) Rd)|auto| |].
        + intros h n (W & path & I & _ & T). split; [exact W|]. eauto.
        + intros c p s' (lost & L & _). eauto. }
    rewrite <- Em in F. eapply wsim_follows; [exact F| | |].
    + intros h n W. right. left. exists o. auto.
    + intros h n message Er (W & path & I & T). rewrite (Heed o path h n Eo I T (Wi h n W)) in Er. discriminate.
    + intros c pc s2 Ec E2 (lost & room & Lo). rewrite Em in E2.
      apply (rest_ok _ o po s1 c pc s2 lost room); auto. apply (tame_bounded (s_heap s1)); [exact (calm_load Lim literal _ _ s1 _ _ _ E2)|exact Bd1].
Qed.

(** ** Executions *)

Context {S : Type} (step : S -> forall c, answer c -> S -> Prop) (interference : S -> S -> Prop).

Lemma worn_out_on a b : worn_out sys argv a -> worn_out sys argv (a ++ b).
Proof. intros (o & c & q & E & P & W). exists o, c, q. splits; auto. now apply worn_on. Qed.

Lemma main_runs s tr s' p' : runs step interference (w_main literal static denied_size fuel sys args detox_sequence s0) s tr s' p' -> Forall fair_event tr -> ~ worn_out sys argv tr ->
  (exists q', runs step interference (Main.main fuel sys argv) s tr s' q' /\ (as_far_as p' q' \/ at_a_loss (requested sys argv s0) p')) \/
  ends_short (requested sys argv s0) step interference (Main.main fuel sys argv) s tr s' p'.
Proof.
  intros Ru F N. destruct (wsim_runs _ _ _ step interference [] _ _ main_sim _ _ _ _ Ru F) as [(q' & Rq & H)|[H|(before & after & -> & O)]].
  - left. exists q'. split; [exact Rq|]. destruct (wsim_far _ _ _ _ _ _ H) as [X|X]; [now intros tr0 a b (E & _)|exact X|contradiction].
  - now right.
  - exfalso. apply N. now apply worn_out_on.
Qed.

Lemma main_runs_back s tr s' q' : runs step interference (Main.main fuel sys argv) s tr s' q' -> Forall fair_event tr -> ~ worn_out sys argv tr ->
  (exists p', runs step interference (w_main literal static denied_size fuel sys args detox_sequence s0) s tr s' p' /\ (as_far_as p' q' \/ at_a_loss (requested sys argv s0) p')) \/
  (exists before after s1 p1, tr = before ++ after /\ runs step interference (w_main literal static denied_size fuel sys args detox_sequence s0) s before s1 p1 /\ at_a_loss (requested sys argv s0) p1).
Proof.
  intros Ru F N. destruct (wsim_runs_back _ _ _ step interference [] _ _ main_sim _ _ _ _ Ru F) as [(p' & Rp & H)|[H|(before & after & -> & O)]].
  - left. exists p'. split; [exact Rp|]. destruct (wsim_far _ _ _ _ _ _ H) as [X|X]; [now intros tr0 a b (E & _)|exact X|contradiction].
  - now right.
  - exfalso. apply N. now apply worn_out_on.
Qed.

Lemma main_left s tr s' n m' : runs step interference (w_main literal static denied_size fuel sys args detox_sequence s0) s tr s' (Ret (n, m')) -> Forall fair_event tr -> ~ worn_out sys argv tr ->
  runs step interference (Main.main fuel sys argv) s tr s' (Ret n) /\ exists new, s_heap m' = s_heap s0 ++ new.
Proof.
  intros Ru F N. destruct (wsim_runs _ _ _ step interference [] _ _ main_sim _ _ _ _ Ru F) as [(q' & Rq & H)|[(b & ms & h0 & n0 & s1 & s2 & q' & _ & _ & _ & E & _)|(before & after & -> & O)]].
  - inversion H as [tr0 a b (E & New)| | | |tr0 p0 q1 O]; subst; [split; auto|contradiction].
  - discriminate.
  - exfalso. apply N. now apply worn_out_on.
Qed.

Lemma main_undefined s tr s' u : runs step interference (w_main literal static denied_size fuel sys args detox_sequence s0) s tr s' (Stop (StopUB u)) -> Forall fair_event tr -> ~ worn_out sys argv tr ->
  (u = ReadPastEnd /\ exists said, opens sys argv said (Over (StopUB u)) /\ tr = map heard said) \/
  (exists ws fs o c, started sys argv ws fs o c /\ (u = BufferOverflow \/ u = BufferUnderread /\ o_is_inline_mode o = true)).
Proof.
  intros R Fa N. destruct (main_runs _ _ _ _ R Fa N) as [(q' & Rq & [H|(m & h & n & _ & _ & E)])|(b & m & h0 & n0 & s1 & s2 & q' & _ & _ & _ & E & _)]; try discriminate.
  destruct q' as [b|w|c k]; cbn [as_far_as] in H; try contradiction. subst w. apply runs_trace in Rq. exact (main_stop _ _ _ _ _ Rq).
Qed.

End whole.
