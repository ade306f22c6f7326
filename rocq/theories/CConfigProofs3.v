(** * Proofs about the configuration in memory: the parser's actions *)

From Coq Require Import Permutation.
From Verif Require Import Base BaseFacts Stdio StdioFacts Filter Spoof ConfigSpec ConfigLex ConfigParse Prog Warnings Startup
  Mem MemSpec MemFacts CFiltersProofs CFileProofs Words WordsSpec WordsFacts CTableProofs CTableProofs2 CFilelist FilesSpec CFilelistProofs CConfig LinkedSpec CConfigProofs CConfigProofs2.

Local Open Scope nat_scope.

Definition last_of (ps : list ptr) : option ptr := first (rev ps) None.

Lemma last_of_end ps p : last_of (ps ++ [p]) = Some p.
Proof. unfold last_of. now rewrite rev_app_distr. Qed.

(** The static variables in memory stand for those on lists. *)
Definition under_way (s : store_t) (v : statics) (c : cf_state) (own : list nat) : Prop :=
  exists sps sown fss fps fown iown,
    sequences_at s sps (c_sequences c) None sown fss /\ v_sequences v = first sps None /\ v_last_sequence v = last_of sps /\
    filters_at s fps (c_filters c) None fown /\ v_filters v = first fps None /\ v_last_filter v = last_of fps /\
    ignored_at s (v_ignore v) (Some (c_ignore c)) iown /\
    own = sown ++ concat fss ++ fown ++ iown /\ NoDup own.

Lemma under_way_there s v c own b : under_way s v c own -> In b own -> there s b.
Proof.
  intros (sps & sown & fss & fps & fown & iown & A & _ & _ & F & _ & _ & G & -> & _) I. rewrite app_assoc in I. apply in_app_iff in I as [I|I].
  - exact (sequences_there _ _ _ _ _ _ A _ I).
  - apply in_app_iff in I as [I|I]; [exact (filters_there _ _ _ _ _ F _ I)|exact (ignored_there _ _ _ _ G _ I)].
Qed.

Lemma under_way_same s s' v c own : (forall b, In b own -> same_at s s' b) -> under_way s v c own -> under_way s' v c own.
Proof.
  intros S (sps & sown & fss & fps & fown & iown & A & V1 & V2 & F & V3 & V4 & G & -> & ND). exists sps, sown, fss, fps, fown, iown. splits; auto.
  - apply (sequences_same s); [| |exact A]; intros b I; apply S; rewrite !in_app_iff; tauto.
  - apply (filters_same s); [|exact F]. intros b I; apply S; rewrite !in_app_iff; tauto.
  - apply (ignored_same s); [|exact G]. intros b I; apply S; rewrite !in_app_iff; tauto.
Qed.

Lemma grown_at s s' more b : s_heap s' = s_heap s ++ more -> s_words s' b = s_words s b -> there s b -> same_at s s' b.
Proof. intros E W T. split; [|exact W]. rewrite E. apply nth_error_app1. now apply there_old. Qed.

Lemma fresh_apart s own n : (forall b, In b own -> there s b) -> NoDup own -> NoDup (own ++ seq (length (s_heap s)) n).
Proof.
  intros T ND. apply NoDup_app_intro; auto; [apply seq_NoDup|]. intros b I J. apply in_seq in J. apply T in I. apply there_old in I. lia.
Qed.

Section actions.

Context {al : allocator}.

Theorem append_filter_ok s v c own m a f : under_way s v c own -> arguments_for s own m a f -> (N.of_nat m < 2 ^ 32)%N ->
  ends (fun h n => heap_size h + N.to_nat n <= heap_size (s_heap s) + filter_size f)
       (fun v' s' => exists own', under_way s' v' (cf_append_filter f c) own' /\ evolves own own' 0 s s' /\
          v_name v' = v_name v /\ v_source v' = v_source v /\ heap_size (s_heap s') <= heap_size (s_heap s) + filter_size f)
       (c_cf_append_filter a v s).
Proof.
  intros U Wa Lm. unfold c_cf_append_filter. eapply ends_bind; [apply (make_ok s own m a f Wa Lm)|].
  intros work s1 (more & mine & -> & H1 & Lv & Sz & W1 & Fm & Pm). pose proof U as (sps & sown & fss & fps & fown & iown & A & V1 & V2 & F & V3 & V4 & G & Eo & ND).
  set (work := mkPtr (length (s_heap s)) 0) in *.
  assert (Sz1 : heap_size (s_heap s1) = heap_size (s_heap s) + filter_size f) by (rewrite H1, size_app; lia).
  assert (T : forall b, In b own -> there s b) by (intros b; apply (under_way_there s v c own b U)).
  assert (K1 : forall b, there s b -> same_at s s1 b).
  { intros b Tb. apply (grown_at _ _ _ _ H1); [|exact Tb]. apply W1. intros [E|[]]. apply there_old in Tb. lia. }
  assert (ND1 : NoDup (own ++ mine)) by (apply (Permutation_NoDup (Permutation_app_head own (Permutation_sym Pm))); now apply fresh_apart).
  set (own' := sown ++ concat fss ++ (fown ++ mine) ++ iown).
  assert (P' : Permutation (own ++ mine) own') by (subst own own'; perm).
  assert (Lm' : length mine = length more) by (now rewrite (Permutation_length Pm), seq_length).
  assert (In' : forall b, In b own' -> In b own \/ length (s_heap s) <= b).
  { intros b I. apply (Permutation_in _ (Permutation_sym P')) in I. apply in_app_iff in I as [I|I]; [now left|]. apply (Permutation_in _ Pm), in_seq in I. lia. }
  assert (Ct : live more + length own = length own' + 0) by (rewrite <- (Permutation_length P'), app_length; lia).
  assert (Wk : In (p_block work) mine) by (apply (filters_heads _ _ _ _ _ _ Fm); now left).
  destruct fps as [|fp fps'] using rev_ind; [clear V4|clear IHfps'].
  - rewrite V3. cbn [first]. destruct (c_filters c) as [|x l] eqn:Ef; [|cbn in F; tauto]. cbn in F. subst fown. cbn [app] in own'.
    constructor. exists own'. splits; auto; [|apply (evolves_new _ _ _ _ _ more); auto|lia].
    + exists sps, sown, fss, [work], mine, iown. cbn [v_sequences v_last_sequence v_filters v_last_filter v_ignore c_sequences c_filters c_ignore cf_append_filter]. splits; auto.
      * apply (sequences_same s); [| |exact A]; intros b I; apply K1, T; subst own; rewrite !in_app_iff; tauto.
      * now rewrite Ef.
      * apply (ignored_same s); [|exact G]. intros b I; apply K1, T; subst own; rewrite !in_app_iff; tauto.
      * apply (Permutation_NoDup P'), ND1.
    + intros b Lb _. apply W1. intros [E|[]]. lia.
  - assert (N : first (fps' ++ [fp]) None <> None) by (now destruct fps'). rewrite V3. destruct (first (fps' ++ [fp]) None) as [fp0|] eqn:E0; [|easy].
    rewrite V4, last_of_end. cbn [deref]. rewrite wbind_ret.
    assert (F1 : filters_at s1 (fps' ++ [fp]) (c_filters c) None fown) by (apply (filters_same s); [|exact F]; intros b I; apply K1, T; subst own; rewrite !in_app_iff; tauto).
    assert (NDf : NoDup fown) by (subst own; apply NoDup_r, NoDup_r, NoDup_l in ND; exact ND).
    destruct (filters_relink s1 fps' fp (c_filters c) None fown work F1 NDf) as (F2 & L7 & (cells & Tf) & Of).
    assert (Rf : exists vs, content s1 fp vs /\ length vs = 7).
    { clear - F1. revert fown F1. generalize (c_filters c). induction fps' as [|p ps IH]; intros [|x l] own; cbn [app filters_at]; try tauto.
      - intros (fn & bn & rest & C & _). eexists. split; [exact C|reflexivity].
      - intros (fn & bn & rest & _ & _ & _ & _ & _ & R). eauto. }
    destruct Rf as (vs & Cv & Lvs).
    step (assign_ok s1 fp vs 0 (Ptr work) Cv ltac:(lia) : assign fp FT_next _ s1 = _).
    set (s2 := assigned s1 fp 0 (Ptr work)) in *.
    assert (Ifp : In (p_block fp) fown) by (apply (filters_heads _ _ _ _ _ _ F); apply in_app_iff; right; now left).
    assert (K2 : forall b, b <> p_block fp -> same_at s1 s2 b) by (intros b Nb; now apply assigned_at).
    assert (NI : forall b, In b (sown ++ concat fss ++ mine ++ iown) -> b <> p_block fp).
    { intros b I ->. apply (Permutation_NoDup P'), (NoDup_count_occ Nat.eq_dec) with (x := p_block fp) in ND1. unfold own' in ND1. rewrite !count_occ_app in ND1.
      rewrite !in_app_iff in I. rewrite !(count_occ_In Nat.eq_dec) in I. rewrite (count_occ_In Nat.eq_dec) in Ifp. lia. }
    constructor. exists own'. splits; auto; [|apply (evolves_new _ _ _ _ _ more); auto|exact ltac:(cbn [s_heap s2 assigned]; lia)].
    + exists sps, sown, fss, ((fps' ++ [fp]) ++ [work]), (fown ++ mine), iown. cbn [v_sequences v_last_sequence v_filters v_last_filter v_ignore c_sequences c_filters c_ignore cf_append_filter]. splits; auto.
      * apply (sequences_same s1); [| |apply (sequences_same s); [| |exact A]]; intros b I;
          try (apply K2, NI; rewrite !in_app_iff; tauto); apply K1, T; subst own; rewrite !in_app_iff; tauto.
      * apply filters_join; [exact F2|]. apply (filters_same s1); [|exact Fm]. intros b I. apply K2, NI. rewrite !in_app_iff; tauto.
      * rewrite <- E0, <- app_assoc. now destruct fps'.
      * now rewrite last_of_end.
      * apply (ignored_same s1); [|apply (ignored_same s); [|exact G]]; intros b I;
          try (apply K2, NI; rewrite !in_app_iff; tauto); apply K1, T; subst own; rewrite !in_app_iff; tauto.
      * apply (Permutation_NoDup P'), ND1.
    + intros b Lb Nb. transitivity (s_words s1 b); [apply update_other; intros ->; apply Nb; subst own; rewrite !in_app_iff; tauto|]. apply W1. intros [E|[]]. lia.
Qed.

(** What a definition of that name replaces. *)
Definition replaces (nm : str) (qs : list sequence_t) : nat :=
  match find (fun q => str_eqb (s_name q) nm) qs with Some q => definition_blocks q | None => 0 end.

Lemma replaces_none nm qs : unlike nm qs -> replaces nm qs = 0.
Proof. unfold replaces. induction qs as [|q qs IH]; intros U; cbn; [reflexivity|]. rewrite (U q) by now left. apply IH. intros x I. apply U. now right. Qed.

Lemma replaces_some nm qs q qs' : unlike nm qs -> str_eqb (s_name q) nm = true -> replaces nm (qs ++ q :: qs') = definition_blocks q.
Proof. unfold replaces. induction qs as [|x qs IH]; intros U E; cbn; [now rewrite E|]. rewrite (U x) by now left. apply IH; auto. intros y I. apply U. now right. Qed.

Theorem append_sequence_ok s v c own m name nm source src : under_way s v c own ->
  v_name v = Some name -> c_name c = Some nm -> word_in s own m (Some name) (Some nm) ->
  v_source v = Some source -> word_in s own m (Some source) (Some src) -> (N.of_nat m < 2 ^ 32)%N ->
  ends (fun h n => heap_size h + N.to_nat n <= heap_size (s_heap s) + 32 + (length nm + 1) + (length src + 1))
       (fun v' s' => exists own', under_way s' v' (cf_append_sequence_list src c) own' /\ evolves own own' (replaces nm (c_sequences c)) s s' /\
          v_source v' = v_source v /\ heap_size (s_heap s') <= heap_size (s_heap s) + 32 + (length nm + 1) + (length src + 1))
       (c_cf_append_sequence_list v s).
Proof.
  intros U Vn Cn Wn Vs Ws Lm. pose proof U as (sps & sown & fss & fps & fown & iown & A & V1 & V2 & F & V3 & V4 & G & Eo & ND).
  assert (T : forall b, In b own -> there s b) by (intros b; apply (under_way_there s v c own b U)).
  unfold c_cf_append_sequence_list. rewrite Vn, wbind_ret, V1.
  assert (ND1 : NoDup sown) by (subst own; now apply NoDup_l in ND).
  destruct (find_ok s sps (c_sequences c) sown fss name nm A ND1 (proj1 Wn)) as (found & Fd & Fp). step Fd.
  unfold cf_append_sequence_list. rewrite Cn. destruct found as [w|].
  - destruct Fp as (ps1 & ps2 & qs1 & q & qs2 & -> & Eq & Ln & Uq & Mq). rewrite wbind_ret, V3, Vs.
    rewrite Eq, (put_old _ _ _ _ _ _ Uq Mq), (replaces_some _ _ _ _ Uq Mq). rewrite Eq in A.
    assert (NDf : NoDup (sown ++ concat fss ++ fown)) by (subst own; rewrite !app_assoc in *; now apply NoDup_l in ND).
    eapply ends_weaken; [apply (fill_ok _ s ps1 w ps2 qs1 q qs2 sown fss fps (c_filters c) fown source m src own A Ln F NDf Ws Lm)| |].
    + intros h n (-> & ->). unfold strlen. lia.
    + intros v' s' (-> & own' & fs' & dead & A' & H' & Sb & Iw & Ld & P'). exists (own' ++ concat fs' ++ iown).
      assert (P2 : Permutation (own ++ [length (s_heap s)]) ((own' ++ concat fs' ++ iown) ++ dead)).
      { transitivity ((sown ++ concat fss ++ fown ++ [length (s_heap s)]) ++ iown); [subst own; perm|]. rewrite P'. perm. }
      assert (ND2 : NoDup ((own' ++ concat fs' ++ iown) ++ dead)) by (apply (Permutation_NoDup P2), (fresh_apart s own 1 T ND)).
      splits; auto.
      * exists (ps1 ++ w :: ps2), own', fs', [], [], iown. cbn [v_sequences v_last_sequence v_filters v_last_filter v_ignore c_sequences c_filters c_ignore]. splits; auto; [reflexivity| |now apply NoDup_l in ND2].
        apply (ignored_same s); [|exact G]. intros b I. assert (Tb : there s b) by (apply T; subst own; rewrite !in_app_iff; tauto).
        apply (grown_at _ _ _ _ H'); [|exact Tb]. apply Sb. intros [<-|[]]. subst own. rewrite !app_assoc in ND. apply (NoDup_apart _ _ (p_block w) ND); [rewrite !in_app_iff; tauto|exact I].
      * apply (evolves_new _ _ _ _ _ _ H').
        -- intros b Lb Nb. apply Sb. intros [<-|[]]. apply Nb. subst own. rewrite !in_app_iff. tauto.
        -- intros b I. assert (J : In b (own ++ [length (s_heap s)])) by (apply (Permutation_in _ (Permutation_sym P2)), in_app_iff; now left).
           apply in_app_iff in J as [J|[<-|[]]]; auto.
        -- apply Permutation_length in P2. rewrite !app_length in P2. rewrite !app_length. cbn [length] in P2. change (live [string_block src]) with 1. lia.
      * rewrite H', size_app. unfold string_block. rewrite size_one, app_length, map_length. cbn [length]. lia.
  - rewrite (put_new _ _ _ _ Fp), (replaces_none _ _ Fp). rewrite wbind_assoc. eapply ends_bind.
    { eapply ends_weaken; [apply (sequence_init_ok s own m name nm Wn Lm)| |intros p s' HQ; exact HQ]. intros h n L. cbv beta in L. lia. }
    intros w s1 (-> & H1 & W1 & C1). set (w := mkPtr (length (s_heap s)) 0) in *.
    assert (K1 : forall b, there s b -> same_at s s1 b).
    { intros b Tb. apply (grown_at _ _ _ _ H1); [|exact Tb]. apply W1. intros [E|[]]. apply there_old in Tb. lia. }
    set (pre := mkSequence nm [] None).
    set (nmp := mkPtr (S (length (s_heap s))) 0) in *.
    assert (Hnm : string_in (s_heap s1) (Some nmp) (Some nm)).
    { split; [reflexivity|]. rewrite H1. change [blank 32; string_block nm] with ([blank 32] ++ [string_block nm]). rewrite app_assoc.
      replace nmp with (mkPtr (length (s_heap s ++ [blank 32])) 0) by (rewrite app_length; cbn [length]; unfold nmp; f_equal; lia).
      apply string_block_at. destruct Wn as (Cw & _). now apply cstr_at_nonul in Cw. }
    set (mine := [length (s_heap s); S (length (s_heap s))]).
    assert (A1 : sequences_at s1 [w] [pre] None mine [[]]).
    { cbn [sequences_at]. exists nmp, None, [], [], [], []. splits; auto; try reflexivity. }
    assert (Sz1 : heap_size (s_heap s1) = heap_size (s_heap s) + 32 + (length nm + 1)).
    { rewrite H1. change [blank 32; string_block nm] with ([blank 32] ++ [string_block nm]). rewrite !size_app. unfold blank, string_block. rewrite !size_one, repeat_length, app_length, map_length. cbn [length]. lia. }
    assert (ND2 : NoDup (own ++ mine)) by exact (fresh_apart s own 2 T ND).
    assert (Nw : forall b, there s b -> b <> length (s_heap s) /\ b <> S (length (s_heap s))) by (intros b Tb; apply there_old in Tb; lia).
    set (ps' := sps ++ [w]).
    (* the new sequence behind the others *)
    assert (Link : exists v1 l1 s2, (match first sps None with
        | None => wret (w, Some w, Some w)
        | Some _ => let$ last := deref (v_last_sequence v) in let$ _ := assign last SQ_next (Ptr w) in wret (w, first sps None, Some w) end) s1 = done (w, v1, l1, s2) /\
        v1 = first ps' None /\ l1 = Some w /\ sequences_at s2 ps' (c_sequences c ++ [pre]) None (sown ++ mine) (fss ++ [[]]) /\
        s_heap s2 = s_heap s1 /\ forall b, ~ In b sown -> s_words s2 b = s_words s1 b).
    { unfold ps'. destruct sps as [|sp sps'] using rev_ind; [clear V2|clear IHsps'].
      - cbn [first app]. destruct (c_sequences c) as [|x l] eqn:Ef; [|cbn in A; tauto]. cbn in A. destruct A as (-> & ->).
        exists (Some w), (Some w), s1. splits; auto.
      - assert (A1' : sequences_at s1 (sps' ++ [sp]) (c_sequences c) None sown fss).
        { apply (sequences_same s); [| |exact A]; intros b I; apply K1, T; subst own; rewrite !in_app_iff; tauto. }
        assert (NDs : NoDup (sown ++ concat fss)) by (subst own; rewrite !app_assoc in *; now apply NoDup_l, NoDup_l in ND).
        destruct (sequences_relink s1 sps' sp (c_sequences c) None sown fss w A1' NDs) as (A2 & L4 & _ & _).
        assert (Rf : exists vs, content s1 sp vs /\ length vs = 4).
        { clear - A1'. revert sown fss A1'. generalize (c_sequences c). induction sps' as [|p ps IH]; intros [|x l] own fs; cbn [app sequences_at]; try tauto.
          - intros (? & ? & ? & ? & ? & ? & C & _). eexists. split; [exact C|reflexivity].
          - intros (? & ? & ? & ? & ? & ? & _ & _ & _ & _ & _ & _ & R). eauto. }
        destruct Rf as (vs & Cv & Lvs). assert (N : first (sps' ++ [sp]) None <> None) by (now destruct sps').
        destruct (first (sps' ++ [sp]) None) as [sp0|] eqn:E0; [|easy]. rewrite V2, last_of_end. cbn [deref]. rewrite wbind_ret.
        step (assign_ok s1 sp vs 0 (Ptr w) Cv ltac:(lia) : assign sp SQ_next _ s1 = _).
        assert (Isp : In (p_block sp) sown) by (apply (sequences_heads _ _ _ _ _ _ _ A); apply in_app_iff; right; now left).
        assert (Nsp : p_block sp <> length (s_heap s) /\ p_block sp <> S (length (s_heap s))) by (apply Nw, T; subst own; rewrite !in_app_iff; tauto).
        do 3 eexists. splits; [reflexivity|rewrite <- E0, <- app_assoc; now destruct sps'|reflexivity| |reflexivity|].
        + apply sequences_join; [exact A2|]. apply (sequences_same s1); [| |exact A1].
          * intros b [<-|[<-|[]]]; apply assigned_at; lia.
          * intros b [].
        + intros b Nb. apply update_other. intros ->. easy. }
    destruct Link as (v1 & l1 & s2 & Lk & -> & -> & A2 & H2 & W2). step Lk. rewrite V3, Vs.
    assert (Len : length sps = length (c_sequences c)) by exact (sequences_length _ _ _ _ _ _ A).
    assert (K2 : forall b, there s b -> ~ In b sown -> same_at s s2 b).
    { intros b Tb Nb. apply (grown_at s s2 [blank 32; string_block nm]); [congruence| |exact Tb]. rewrite (W2 b Nb). apply (K1 b Tb). }
    assert (App : forall b, In b fown \/ In b iown -> ~ In b sown).
    { intros b I J. subst own. rewrite (app_assoc (concat fss)) in ND. apply (NoDup_apart _ _ b ND J). rewrite !in_app_iff. tauto. }
    assert (F2 : filters_at s2 fps (c_filters c) None fown).
    { apply (filters_same s); [|exact F]. intros b I. apply K2; [apply T; subst own; rewrite !in_app_iff; tauto|apply App; tauto]. }
    assert (Ecc : concat (fss ++ [[]]) = concat fss) by (rewrite concat_app; cbn; apply app_nil_r).
    assert (NDf : NoDup ((sown ++ mine) ++ concat (fss ++ [[]]) ++ fown)).
    { rewrite Ecc. apply (NoDup_l _ iown). apply (Permutation_NoDup (l := own ++ mine)); [subst own; perm|exact ND2]. }
    assert (Ws2 : word_in s2 own m (Some source) (Some src)).
    { destruct Ws as (Cs & Ns & Ls). cbn. splits; auto. apply (cstr_same (s_heap s)); [|exact Cs].
      assert (Tb : there s (p_block source)) by (destruct Cs as (cells & rest & X & _); now exists cells). apply K2; [exact Tb|]. intros I. apply Ns. subst own. rewrite in_app_iff. tauto. }
    eapply ends_weaken; [apply (fill_ok _ s2 sps w [] (c_sequences c) pre [] (sown ++ mine) (fss ++ [[]]) fps (c_filters c) fown source m src own A2 Len F2 NDf Ws2 Lm)| |].
    + intros h n (-> & ->). rewrite H2. unfold strlen. lia.
    + intros v' s' (-> & own' & fs' & dead & A' & H' & Sb & Iw & Ld & P'). exists (own' ++ concat fs' ++ iown).
      change (definition_blocks pre) with 0 in Ld. destruct dead as [|]; [|cbn in Ld; lia]. rewrite app_nil_r, Ecc in P'.
      assert (E2 : s_heap s' = s_heap s ++ [blank 32; string_block nm; string_block src]) by (rewrite H', H2, H1, <- app_assoc; reflexivity).
      assert (E3 : length (s_heap s2) = S (S (length (s_heap s)))) by (rewrite H2, H1, app_length; cbn; lia).
      assert (P2 : Permutation (own ++ [length (s_heap s); S (length (s_heap s)); S (S (length (s_heap s)))]) (own' ++ concat fs' ++ iown)).
      { rewrite app_assoc, <- P', E3. subst own. unfold mine. perm. }
      assert (ND3 : NoDup (own' ++ concat fs' ++ iown)) by (apply (Permutation_NoDup P2), (fresh_apart s own 3 T ND)).
      assert (Wd : forall b, b < length (s_heap s) -> ~ In b sown -> s_words s' b = s_words s b).
      { intros b Lb Nb. rewrite (Sb b), (W2 b Nb); [apply W1; intros [E|[]]; lia|]. intros [E|[]]. cbn in E. lia. }
      splits; auto.
      * exists ps', own', fs', [], [], iown. cbn [v_sequences v_last_sequence v_filters v_last_filter v_ignore c_sequences c_filters c_ignore]. splits; auto; [unfold ps'; now rewrite last_of_end|reflexivity|].
        apply (ignored_same s); [|exact G]. intros b I. assert (Tb : there s b) by (apply T; subst own; rewrite !in_app_iff; tauto).
        apply (grown_at _ _ _ _ E2); [|exact Tb]. apply Wd; [now apply there_old|apply App; tauto].
      * apply (evolves_new _ _ _ _ _ _ E2).
        -- intros b Lb Nb. apply Wd; [exact Lb|]. intros I. apply Nb. subst own. rewrite !in_app_iff. tauto.
        -- intros b I. apply (Permutation_in _ (Permutation_sym P2)) in I. apply in_app_iff in I as [I|I]; [auto|]. cbn in I. lia.
        -- apply Permutation_length in P2. rewrite (app_length own) in P2. cbn [length] in P2. change (live [blank 32; string_block nm; string_block src]) with 3. lia.
      * rewrite H', H2, size_app, Sz1. unfold string_block. rewrite size_one, app_length, map_length. cbn [length]. lia.
Qed.

Theorem append_ignore_ok s v c own m file x : under_way s v c own -> word_in s own m (Some file) (Some x) -> (N.of_nat m < 2 ^ 32)%N ->
  (Z.of_nat (length (c_ignore c) + 32) <= int_max)%Z ->
  ends (fun h n => heap_size h + N.to_nat n <= heap_size (s_heap s) + 8 * (length (c_ignore c) + 32) + (length x + 1))
       (fun v' s' => exists own', v' = v /\ under_way s' v (cf_append_ignore_entry x c) own' /\ evolves own own' 0 s s' /\
          heap_size (s_heap s') <= heap_size (s_heap s) + 8 * (length (c_ignore c) + 32) + (length x + 1))
       (c_cf_append_ignore_entry (Some file) v s).
Proof.
  intros U (Cx & Nx & Lx) Lm Li. pose proof U as (sps & sown & fss & fps & fown & iown & A & V1 & V2 & F & V3 & V4 & G & Eo & ND).
  assert (T : forall b, In b own -> there s b) by (intros b; apply (under_way_there s v c own b U)).
  unfold c_cf_append_ignore_entry. cbn [deref]. rewrite wbind_ret. destruct (v_ignore v) as [l|] eqn:Vi; cbn [ignored_at] in G; [|easy]. destruct G as (max & G & Mx).
  assert (Rm : roomier (c_ignore c) max <= length (c_ignore c) + 16 /\ max <= roomier (c_ignore c) max) by (unfold roomier; destruct (Nat.eqb_spec (length (c_ignore c)) max); lia).
  assert (Nf : ~ In (p_block file) iown) by (intros I; apply Nx; subst own; rewrite !in_app_iff; tauto).
  eapply ends_bind.
  { eapply ends_weaken; [apply (list_put s l (c_ignore c) 0 iown max file x G Cx Nf); [unfold fits, strlen; lia|lia]| |intros a s' HQ; exact HQ].
    intros h n (_ & L). lia. }
  intros [] s' (iown' & G' & (Mv1 & Mv2 & Mv3 & Mv4) & Ln & Sz). constructor. exists (sown ++ concat fss ++ fown ++ iown').
  assert (K : forall b, In b (sown ++ concat fss ++ fown) -> same_at s s' b).
  { intros b I. apply Mv1; [apply there_old, T; subst own; rewrite !in_app_iff in *; tauto|]. subst own. rewrite !app_assoc in *. now apply (NoDup_apart _ _ b ND). }
  splits; auto; [| |lia].
  - exists sps, sown, fss, fps, fown, iown'. splits; auto.
    + apply (sequences_same s); [| |exact A]; intros b I; apply K; rewrite !in_app_iff; tauto.
    + apply (filters_same s); [|exact F]; intros b I; apply K; rewrite !in_app_iff; tauto.
    + rewrite Vi. cbn [ignored_at cf_append_ignore_entry c_ignore]. exists (roomier (c_ignore c) max). split; [exact G'|]. rewrite app_length. cbn [length]. lia.
    + rewrite !app_assoc. apply NoDup_app_intro.
      * subst own. rewrite !app_assoc in ND. now apply NoDup_l in ND.
      * destruct G' as (? & ? & _ & _ & _ & _ & N & _). exact N.
      * intros b I J. apply Mv2 in J as [J|J].
        -- subst own. rewrite !app_assoc in ND. now apply (NoDup_apart _ _ b ND).
        -- assert (Tb : there s b) by (apply T; subst own; rewrite !in_app_iff in *; tauto). apply there_old in Tb. lia.
  - unfold evolves. splits; auto.
    + intros b Lb Nb. apply Mv1; [exact Lb|]. intros I. apply Nb. subst own. rewrite !in_app_iff. tauto.
    + intros b I. subst own. rewrite !in_app_iff in *. assert (In b iown' -> In b iown \/ length (s_heap s) <= b) by apply Mv2. tauto.
    + subst own. rewrite !app_length. lia.
Qed.

End actions.
