(** * Linked filters in memory: a sequence, and one that was prepared *)

From Verif Require CSim.
From Verif Require Import Base BaseFacts Stdio Table Filter Spoof ConfigLoad Prog Warnings Startup Mem MemSpec MemFacts CFilters CFiltersProofs CMainProofs
  Words WordsSpec WordsFacts CTable CTableProofs CTableProofs2 FilesSpec CConfig LinkedSpec CConfigProofs CConfigProofs5 CConfigProofs7 LoadSpec CLoad CLoadSpec CLoadProofs4
  CReview CReviewSpec CReviewProofs CReviewProofs2 CReviewProofs3 CRun CRunSpec CRunProofs CRunProofs2.

Local Open Scope nat_scope.

Section proofs.

Context {al : allocator}.
Hypothesis Lim : limited al.
Context (literal : str -> ptr) (pf : platform).

Lemma string_old h p x b : string_in h p x -> In b (block_list [p]) -> b < length h.
Proof.
  destruct p as [p|]; cbn [block_list flat_map app In]; [|tauto]. destruct x as [x|]; cbn [string_in]; [|contradiction].
  intros (_ & cells & r & E & _) [<-|[]]. apply nth_error_Some. congruence.
Qed.

Lemma pair_list b x y : In b (block_list [x; y]) -> In b (block_list [x]) \/ In b (block_list [y]).
Proof. unfold block_list. cbn [flat_map]. rewrite !app_nil_r. apply in_app_iff. Qed.

Lemma reviewed_old s ps : forall fs k own b, reviewed_at s ps fs k own -> In b own -> b < length (s_heap s).
Proof.
  induction ps as [|p ps IH]; intros [|f fs] k own b; cbn [reviewed_at]; try contradiction; [intros -> []|].
  intros (fn & bn & tb & town & rest & C & F & B & T & -> & R) [<-|I]; [exact (content_live _ _ _ C)|].
  rewrite !in_app_iff in I. destruct I as [I|[I|I]]; eauto; [apply pair_list in I as [I|I]; eauto using string_old|].
  destruct tb as [q|], (f_table f) as [t|]; cbn [table_of] in T; try contradiction; [|subst town; destruct I].
  destruct T as (c & T & _). eapply own_old; eauto.
Qed.

(** A filter of no known kind *)
Theorem unknown_in_memory s p l z f : content s p l -> nth_error l FT_cleaner = Some (Num z) -> (z < 1 \/ 7 < z)%Z ->
  w_filter_run literal pf (Some p) (Some f) s = ([(Stderr, bs "detox: unknown filter " ++ printf_int z ++ [newline])], Exit EXIT_FAILURE).
Proof.
  intros C E Z. unfold w_filter_run. rewrite (wbind_done _ _ _ _ _ (int_at_ok _ _ _ FT_cleaner _ C E)). cbv [cleaner_code].
  repeat (match goal with |- context [(z =? ?n)%Z] => destruct (Z.eqb_spec z n); [lia|] end).
  unfold w_exit, complain. cbn [tbind say quietly]. now rewrite <- !app_assoc.
Qed.

(** The sequence, its lookups counted *)
Lemma sequence_step s p q k own f name : ready_at s p q k own -> Forall familiar (s_filters q) -> literals_in (s_heap s) literal run_literals ->
  cstr_at (s_heap s) f name -> fits name -> (Z.of_nat (k + longest pf (s_filters q) name) <= int_max)%Z ->
  lockstep (fun _ s' => ready_at s' p q (k + longest pf (s_filters q) name) own /\ same_but own s s')
    (w_sequence_run literal pf (Some p) (Some f) s) (c_sequence_run pf (Some q) (Some f) (s_heap s)).
Proof.
  intros (next & nm & source & fps & fown & C & Nm & So & R & -> & ND) Fam Li W Fi Few. unfold w_sequence_run, c_sequence_run.
  rewrite (wbind_done _ _ _ _ _ (ptr_at_ok _ _ _ SQ_filters _ C eq_refl)).
  apply NoDup_cons_iff in ND as (Np & ND).
  assert (Old : forall b, In b fown -> b < length (s_heap s)) by eauto using reviewed_old.
  eapply (lockstep_bind (fun w s1 => CFiltersProofs.leaves (s_heap s) w name (s_heap s1) /\ s_words s1 = s_words s)); [reflexivity| |].
  - apply lockstep_bytes; [reflexivity|]. intros said a h E. cbn [s_heap s_words]. split; [|reflexivity].
    revert E. rewrite <- (CSim.mbind_mret (c_strdup f)).
    apply (strdup_step Lim (s_heap s) f name mret (@done unit tt) (fun c => c = (said, Ok (a, h)) -> CFiltersProofs.leaves (s_heap s) a name h) W Fi).
    + intros Bd [= <- <- <-]. apply leaves_last; [exact (cstr_at_nonul _ _ _ W)|exact Bd].
    + intros c (o & o' & message & more & n & _ & -> & _). discriminate.
  - intros said w s1 _ (Lv & Ew). unfold wwhile.
    assert (Same : forall b, b < length (s_heap s) -> same_at s s1 b).
    { intros b L. split; [|now rewrite Ew]. destruct Lv as (i & j & r & -> & _). now apply nth_error_app1. }
    assert (R1 : reviewed_at s1 fps (s_filters q) k fown) by (apply (reviewed_same s); auto).
    eapply lockstep_weaken.
    + eapply (run_rounds Lim literal pf (s_heap s) fps _ _ _ fown w name s1); eauto using NoDup_r.
      apply Nat.lt_succ_r. eapply reviewed_room; eauto using NoDup_r.
    + intros a s2 (R2 & Sb & K).
      assert (Same2 : forall b, In b (p_block p :: block_list [Some nm; source]) -> same_at s s2 b).
      { intros b I. assert (L : b < length (s_heap s)).
        { destruct I as [<-|I]; [exact (content_live _ _ _ C)|]. 
          apply pair_list in I as [I|I]; eauto using string_old. }
        destruct (Same b L) as (E1 & E2). split; [rewrite (proj2 K) by exact L; exact E1|].
        rewrite Sb; [exact E2|]. intros J. destruct I as [<-|I].
        - apply Np. apply in_app_iff. now right.
        - exact (NoDup_apart _ _ _ ND I J). }
      split.
      * exists next, nm, source, fps, fown. splits; auto.
        -- apply (content_at s); [|exact C]. apply Same2. now left.
        -- apply (string_same s); [|exact Nm]. intros b I. apply Same2. right. cbn in *. tauto.
        -- apply (string_same s); [|exact So]. intros b I. apply Same2. right. cbn in *. rewrite app_nil_r in *. now right.
        -- now constructor.
      * intros b Nb. rewrite Sb by (intros J; apply Nb; right; apply in_app_iff; now right). now rewrite Ew.
Qed.

Lemma lockstep_heap {A} (Q : A -> store_t -> Prop) w m : lockstep Q w m -> heap_of w = m.
Proof.
  intros (E & S). destruct w as [o [[a s]|u|c]], m as [o' [[b h]|v|d]]; cbn in *; try contradiction; unfold heap_of; cbn; rewrite ?app_nil_r; try congruence.
  destruct S as (<- & <- & _). congruence.
Qed.

Theorem run_in_memory s p q k own f name : ready_at s p q k own -> Forall familiar (s_filters q) -> literals_in (s_heap s) literal run_literals ->
  cstr_at (s_heap s) f name -> fits name -> (Z.of_nat (k + longest pf (s_filters q) name) <= int_max)%Z ->
  in_memory (s_heap s) (heap_of (w_sequence_run literal pf (Some p) (Some f) s)) (sequence_run_says pf (Some q) (Some name)) /\
  forall said a s', w_sequence_run literal pf (Some p) (Some f) s = (said, Ok (a, s')) -> still_ready s p q k (longest pf (s_filters q) name) own s'.
Proof.
  intros Rd Fam Li W Fi Few. pose proof (sequence_step s p q k own f name Rd Fam Li W Fi Few) as S.
  pose proof (sequence_same Lim pf (Some q) (s_heap s) f name W Fi) as Sm.
  split; [rewrite (lockstep_heap _ _ _ S); now apply same_in_memory|].
  intros said a s' E. rewrite E in S. destruct S as (_ & S). cbn [snd] in S.
  destruct (c_sequence_run pf (Some q) (Some f) (s_heap s)) as [o [[b h]|u|c]] eqn:Ec; cbn [snd] in S; try contradiction. destruct S as (-> & <- & Rd' & Sb).
  unfold still_ready. splits; auto. destruct Sm as [(_ & A)|(o1 & o2 & message & more & n & _ & D & _)]; [|discriminate].
  destruct b as [w|]; cbn [snd] in A; destruct (snd (sequence_run_says pf (Some q) (Some name))) as [[r|]|u|c]; try contradiction.
  - destruct A as (i & j & rest & -> & _). eauto.
  - destruct A as ((n & ->) & _). eauto.
Qed.

(** ** A sequence that was prepared *)

Lemma run_follows s p q k own f name : ready_at s p q k own -> Forall familiar (s_filters q) -> literals_in (s_heap s) literal run_literals ->
  cstr_at (s_heap s) f name -> fits name -> (Z.of_nat (k + longest pf (s_filters q) name) <= int_max)%Z ->
  follows (beyond s) (fun _ _ => False) (fun r a s' => string_in (s_heap s') a r /\ (forall x, In x (block_list [a]) -> length (s_heap s) <= x) /\ still_ready s p q k (longest pf (s_filters q) name) own s')
    (sequence_run_says pf (Some q) (Some name)) (w_sequence_run literal pf (Some p) (Some f) s).
Proof.
  intros Rd Fam Li W Fi Few. destruct (run_in_memory s p q k own f name Rd Fam Li W Fi Few) as (I & K).
  set (says := sequence_run_says pf (Some q) (Some name)) in *. clearbody says.
  destruct (w_sequence_run literal pf (Some p) (Some f) s) as [o [[a s']|u|c]].
  - specialize (K _ _ _ eq_refl). unfold heap_of in I. cbn in I. rewrite app_nil_r in I. inversion I as [said w r h' H E1 E2|said h' H E1 E2| | |]; subst.
    + eapply follows_done; [reflexivity|]. splits; auto.
      * destruct H as (x & b & y & -> & -> & Hb & _). cbn [string_in]. split; [reflexivity|]. destruct Hb as (rest & -> & Nr).
        exists (map Some r ++ Some NUL :: rest), rest. splits; auto. cbn [p_block]. rewrite app_assoc. now rewrite nth_error_app2, Nat.sub_diag by lia.
      * destruct H as (x & b & y & _ & -> & _). intros z [<-|[]]. cbn. rewrite app_length. lia.
    + eapply follows_done; [reflexivity|]. splits; auto; [exact Logic.I|intros x []].
  - unfold heap_of in I. cbn in I. inversion I; subst. now apply follows_ub.
  - unfold heap_of in I. cbn in I. inversion I; subst; [now apply follows_exit|].
    eapply (follows_refused _ _ _ _ said said'); eauto. now exists more.
Qed.

Lemma extended_cstr h h' more p x : h' = h ++ more -> cstr_at h p x -> cstr_at h' p x.
Proof.
  intros -> C. apply (cstr_same h); [|exact C]. apply nth_error_app1. destruct C as (cells & rest & E & _). apply nth_error_Some. congruence.
Qed.

Theorem run_all_in_memory p q own names : forall fs s k, ready_at s p q k own -> Forall familiar (s_filters q) -> literals_in (s_heap s) literal run_literals ->
  Forall2 (cstr_at (s_heap s)) fs names -> Forall fits names -> (Z.of_nat (k + lookups pf (s_filters q) names) <= int_max)%Z ->
  follows (beyond s) (fun _ _ => False) (fun rs qs s' => Forall2 (string_in (s_heap s')) qs rs /\ still_ready s p q k (lookups pf (s_filters q) names) own s')
    (run_all_says pf q names) (w_run_all literal pf p fs s).
Proof.
  induction names as [|name names IH]; intros fs s k Rd Fam Li W Fi Few; inversion W as [|f ? fs' ? W1 W2]; subst; cbn [run_all_says w_run_all lookups] in *.
  - apply follows_ret. split; [constructor|]. unfold still_ready. rewrite Nat.add_0_r. splits; auto; [now intros b _|]. exists []. now rewrite app_nil_r.
  - inversion Fi as [|? ? Fi1 Fi2]. subst. eapply follows_bind.
    + eapply follows_weaken; [eapply run_follows; eauto; lia|auto|auto|]. intros r a s1 X. exact X.
    + intros r a s1 (Sr & _ & (Rd1 & Sb1 & more1 & E1)). cbv beta. eapply follows_bind.
      * eapply follows_weaken; [eapply (IH fs' s1 (k + longest pf (s_filters q) name)); auto|..].
        -- intros x I. eapply extended_cstr; eauto.
        -- eapply Forall2_impl; [|exact W2]. intros g x C. eapply extended_cstr; eauto.
        -- lia.
        -- intros h n (more & ->). exists (more1 ++ more). now rewrite E1, app_assoc.
        -- auto.
        -- intros rs qs s2 X. exact X.
      * intros rs qs s2 (Srs & (Rd2 & Sb2 & more2 & E2)). apply follows_ret. split; [constructor; [|exact Srs]|].
        -- destruct a as [a|], r as [r|]; cbn [string_in] in *; auto. destruct Sr as (O & C). split; [exact O|]. eapply extended_cstr; eauto.
        -- unfold still_ready. rewrite Nat.add_assoc. splits; auto; [|exists (more1 ++ more2); now rewrite E2, E1, app_assoc].
           intros b N. rewrite Sb2 by exact N. now apply Sb1.
Qed.

Lemma review_familiar datadir parse fs fs' : snd (review_filters_says datadir parse fs) = Ok fs' -> Forall familiar fs -> Forall familiar fs'.
Proof.
  revert fs'. induction fs as [|f fs IH]; intros fs' E F; cbn [review_filters_says] in E.
  - injection E as <-. constructor.
  - inversion F as [|? ? Ff Fr]. subst. destruct (filter_load_table_says datadir parse f) as [o [t|u|c]]; cbn [tbind] in E; try discriminate.
    destruct (review_filters_says datadir parse fs) as [o' [r|u|c]]; cbn [tbind snd fst done quietly] in *; try discriminate.
    injection E as <-. constructor; [|now apply IH]. unfold with_table. destruct t; exact Ff.
Qed.

Lemma prepared_familiar sys file name c q : snd (prepare_says sys file name) = Ok (c, q) -> Forall familiar (s_filters q).
Proof.
  unfold prepare_says. pose proof (load_known (m_env sys) file) as Kn. destruct (config_file_load_says (m_env sys) file) as [o [c0|u|x]]; cbn [tbind]; try discriminate.
  specialize (Kn c0 eq_refl). destruct (sequence_choose_default (cf_sequences c0) name) as [q0|] eqn:Eq; [|discriminate].
  assert (F0 : Forall familiar (s_filters q0)).
  { unfold known_sequences in Kn. rewrite Forall_forall in Kn. apply Kn. revert Eq. unfold sequence_choose_default.
    destruct (find _ (cf_sequences c0)) as [x|] eqn:Ef; [intros [= <-]; now apply find_some in Ef as (I & _)|].
    destruct name; [discriminate|]. destruct (cf_sequences c0); [discriminate|]. intros [= <-]. now left. }
  unfold sequence_review_says. pose proof (review_familiar (e_datadir (m_env sys)) (table_at_says sys) (s_filters q0)) as Rf.
  destruct (review_filters_says (e_datadir (m_env sys)) (table_at_says sys) (s_filters q0)) as [o' [fs'|u|x]]; cbn [tbind]; try discriminate.
  intros [= _ <-]. cbn [s_filters]. apply Rf; auto.
Qed.

End proofs.

Section clean.

Context {al : allocator}.
Hypothesis Lim : limited al.
Context (literal : str -> ptr) (static : static_table -> ptr) (denied_size : str -> nat) (sys : system).

Lemma clean_ok (R R' : heap -> N -> Prop) s file path name nm f filename :
  follows R R' (prepares s) (prepare_says sys path nm) (c_prepare literal static denied_size sys file name s) ->
  literals_in (s_heap s) literal run_literals -> cstr_at (s_heap s) f filename -> fits filename ->
  (forall c q, snd (prepare_says sys path nm) = Ok (c, q) -> (Z.of_nat (longest (m_platform sys) (s_filters q) filename) <= int_max)%Z) ->
  follows (fun h n => R h n \/ once_prepared s h n) R' (cleans s) (clean_says sys path nm filename)
    ((let$ (c, q) := c_prepare literal static denied_size sys file name in w_sequence_run literal (m_platform sys) (Some q) (Some f)) s).
Proof.
  intros F Li W Fi Few. unfold clean_says. eapply follows_bind.
  - apply follows_with in F. eapply follows_weaken; [exact F|intros h n X; left; exact X|auto|]. intros b a s1 X. exact X.
  - intros [c q] [pc p] s1 (P & Ok1). pose proof (Few _ _ Ok1) as Few1. pose proof (prepared_familiar _ _ _ _ _ Ok1) as Fam.
    pose proof P as (ignore & iown & own & _ & _ & Rd & _ & _ & New & Old). cbn [fst snd] in Rd.
    assert (K : forall b, b < length (s_heap s) -> nth_error (s_heap s1) b = nth_error (s_heap s) b) by (intros b L; now apply Old).
    assert (C1 : forall r x, cstr_at (s_heap s) r x -> cstr_at (s_heap s1) r x).
    { intros r x C. apply (cstr_same (s_heap s)); [|exact C]. apply K. destruct C as (cells & rest & E & _). apply nth_error_Some. congruence. }
    eapply follows_weaken.
    + eapply (run_follows Lim literal (m_platform sys) s1 p q 0 own f filename); eauto. intros x I. apply C1. auto.
    + intros h n B. right. exists (c, q), (pc, p), s1. auto.
    + intros h n [].
    + intros r a s2 (Sr & Nw & (_ & Sb & more & E2)).
      assert (L1 : length (s_heap s) <= length (s_heap s1)).
      { destruct (le_lt_dec (length (s_heap s)) (length (s_heap s1))) as [X|X]; [exact X|]. exfalso. specialize (K _ X).
        destruct (nth_error (s_heap s) (length (s_heap s1))) eqn:E; [|apply nth_error_None in E; lia].
        assert (Y : nth_error (s_heap s1) (length (s_heap s1)) <> None) by congruence. apply nth_error_Some in Y. lia. }
      unfold cleans. splits; auto.
      * intros x I. specialize (Nw x I). lia.
      * intros x H. split; destruct (Old x H) as (E & E').
        -- rewrite <- E, E2. apply nth_error_app1. lia.
        -- rewrite <- E'. apply Sb. intros J. assert (length (s_heap s) <= x) by (apply New; right; apply in_app_iff; now right). lia.
Qed.

Hypothesis Dec : decent sys denied_size.

Theorem clean_in_memory s name nm f filename :
  statics_in s static [] -> literals_in (s_heap s) literal review_literals -> literals_in (s_heap s) literal the_literals -> literals_in (s_heap s) literal run_literals ->
  orderly (m_env sys) -> text_in (s_heap s) name nm -> cstr_at (s_heap s) f filename -> fits filename ->
  (forall c q, snd (prepare_says sys None nm) = Ok (c, q) -> (Z.of_nat (longest (m_platform sys) (s_filters q) filename) <= int_max)%Z) ->
  follows (fun h n => (within s (loading_room (m_env sys)) h n \/ once_loaded s h n) \/ once_prepared s h n)
    (fun h n => within s (loading_room (m_env sys)) h n /\ exists path, In path (candidates (m_env sys)) /\ for_text (contents_of (e_files (m_env sys) path)) n)
    (cleans s) (clean_says sys None nm filename)
    ((let$ (c, q) := c_prepare literal static denied_size sys None name in w_sequence_run literal (m_platform sys) (Some q) (Some f)) s).
Proof. intros St L1 L2 L3 Or Tx W Fi Few. apply clean_ok; auto. now apply prepare_in_memory. Qed.

Theorem clean_named_in_memory s q path name nm f filename :
  statics_in s static [] -> literals_in (s_heap s) literal review_literals -> literals_in (s_heap s) literal run_literals -> cstr_at (s_heap s) q path ->
  moderate path (contents_of (e_files (m_env sys) path)) [] -> text_in (s_heap s) name nm -> cstr_at (s_heap s) f filename -> fits filename ->
  (forall c q, snd (prepare_says sys (Some path) nm) = Ok (c, q) -> (Z.of_nat (longest (m_platform sys) (s_filters q) filename) <= int_max)%Z) ->
  follows (fun h n => (within s (length path + 1 + reading_room path (contents_of (e_files (m_env sys) path)) []) h n \/ once_loaded s h n) \/ once_prepared s h n)
    (fun _ n => for_text (contents_of (e_files (m_env sys) path)) n)
    (cleans s) (clean_says sys (Some path) nm filename)
    ((let$ (c, q) := c_prepare literal static denied_size sys (Some q) name in w_sequence_run literal (m_platform sys) (Some q) (Some f)) s).
Proof. intros St L1 L3 Cq Mo Tx W Fi Few. apply clean_ok; auto. now apply prepare_named_in_memory. Qed.

End clean.
