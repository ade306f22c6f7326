(** * Proofs about the configuration in memory: parse_config_file *)

From Coq Require Import Permutation.
From Verif Require Import Base BaseFacts Stdio StdioFacts Filter Spoof ConfigSpec ConfigLex ConfigLexProofs ConfigParse Prog Warnings Startup StartProofs3
  Mem MemSpec MemFacts CFiltersProofs CFileProofs Words WordsSpec WordsFacts CTableProofs CTableProofs2 CFilelist FilesSpec CFilelistProofs CConfig LinkedSpec CConfigProofs CConfigProofs2 CConfigProofs3 CConfigProofs4 CConfigProofs5.

Local Open Scope nat_scope.

(** ** Blocks *)

Lemma evolves_perm own own' own1 own1' k s s' : Permutation own own1 -> Permutation own' own1' -> evolves own own' k s s' -> evolves own1 own1' k s s'.
Proof.
  intros P P' (A & B & C & D). unfold evolves. rewrite <- (Permutation_length P), <- (Permutation_length P'). splits; auto.
  - intros b L N. apply A; auto. intros I. apply N. now apply (Permutation_in _ P).
  - intros b I. destruct (B b (Permutation_in _ (Permutation_sym P') I)) as [J|J]; auto. left. now apply (Permutation_in _ P).
Qed.

Lemma evolves_frame x own own' k s s' : evolves own own' k s s' -> evolves (x :: own) (x :: own') k s s'.
Proof.
  intros (A & B & C & D). unfold evolves. cbn [length In]. splits; [| |exact C|lia].
  - intros b L N. apply A; tauto.
  - intros b [I|I]; [tauto|]. apply B in I. tauto.
Qed.

Section parse.

Context {al : allocator}.

Lemma follows_prefix {A B} (R R' : heap -> N -> Prop) (Q : B -> A -> store_t -> Prop) o pure t : follows R R' Q pure t ->
  follows R R' Q (o ++ fst pure, snd pure) (o ++ fst t, snd t).
Proof.
  intros F. destruct F; cbn [fst snd].
  - eapply follows_done; eauto. now rewrite H.
  - apply follows_exit. now rewrite H.
  - apply follows_ub. now rewrite H.
  - rewrite app_assoc. eapply (follows_refused _ _ _ _ (o ++ said) said'); eauto. cbn. rewrite H. now rewrite app_assoc.
  - eapply follows_unnoticed; eauto.
Qed.

Lemma follows_bind {A B A' B'} (R R' : heap -> N -> Prop) (Q : B -> A -> store_t -> Prop) (Q' : B' -> A' -> store_t -> Prop) pure (kp : B -> talk B') (m : wmem A) (k : A -> wmem A') s :
  follows R R' Q pure (m s) -> (forall b a s', Q b a s' -> follows R R' Q' (kp b) (k a s')) -> follows R R' Q' (tbind pure kp) (Words.wbind m k s).
Proof.
  intros F K. unfold Words.wbind. destruct F.
  - rewrite H. cbn [tbind]. specialize (K _ _ _ H0). destruct (kp b) as [o1 r1], (k a s0) as [o2 r2]. exact (follows_prefix _ _ _ said _ _ K).
  - rewrite H. cbn [tbind]. now apply follows_exit.
  - rewrite H. cbn [tbind]. now apply follows_ub.
  - cbn [tbind]. destruct pure as [o r]. cbn [fst] in H. subst o.
    destruct r as [b| |]; cbn [tbind]; [destruct (kp b) as [o1 r1]|..];
      [eapply (follows_refused _ _ _ _ said (said' ++ o1)); eauto; cbn; now rewrite app_assoc|eapply (follows_refused _ _ _ _ said said'); eauto..].
  - eapply follows_unnoticed; eauto.
Qed.

(** ** The last sequence *)

Lemma last_rounds s ps : forall p qs own fs fuel, sequences_at s (p :: ps) qs None own fs -> S (length ps) <= fuel ->
  exists l, wrounds fuel (fun current =>
    let$ next := ptr_at current SQ_next in
    match next with
    | None => wret (inr current)
    | Some _ =>
      let$ next := ptr_at current SQ_next in
      let$ next := deref next in
      wret (inl next)
    end) p s = done (l, s) /\ last_of (p :: ps) = Some l.
Proof.
  induction ps as [|p' ps IH]; intros p [|q qs] own fs fuel; cbn [sequences_at]; try tauto; (destruct fuel as [|fuel]; [cbn; lia|]); cbn [wrounds].
  - intros (n & src & fps & fo & rest & fr & C & _) L. exists p. rewrite wbind_assoc. step (ptr_at_ok s p _ 0 _ C eq_refl : ptr_at p SQ_next s = _). cbn [first].
    rewrite wbind_ret. split; reflexivity.
  - intros (n & src & fps & fo & rest & fr & C & _ & _ & _ & _ & _ & R) L. rewrite wbind_assoc. step (ptr_at_ok s p _ 0 _ C eq_refl : ptr_at p SQ_next s = _). cbn [first].
    rewrite wbind_assoc. step (ptr_at_ok s p _ 0 _ C eq_refl : ptr_at p SQ_next s = _). rewrite wbind_assoc. cbn [first deref]. rewrite !wbind_ret.
    destruct (IH p' qs rest fr fuel R ltac:(cbn [length] in L; lia)) as (l & E & La). exists l. split; [exact E|]. rewrite <- La. unfold last_of.
    change (p :: p' :: ps) with ([p] ++ (p' :: ps)). rewrite rev_app_distr. cbn [rev]. destruct (rev ps); reflexivity.
Qed.

Lemma last_ok s p ps qs own fs : sequences_at s (p :: ps) qs None own fs -> NoDup own ->
  exists l, c_last_sequence p s = done (l, s) /\ last_of (p :: ps) = Some l.
Proof. intros A ND. apply (last_rounds s ps p qs own fs); [exact A|]. pose proof (sequences_room _ _ _ _ _ _ A ND). cbn [length] in *. lia. Qed.

(** ** After the preparations *)

Lemma parse_rest contents m i source src s ret v c own line : length contents <= m -> (N.of_nat m < 2 ^ 32)%N -> (Z.of_nat (i + 32) <= int_max)%Z ->
  under_way s v c own -> c_filters c = [] -> v_source v = Some source -> word_in s (p_block ret :: own) m (Some source) (Some src) -> length (c_ignore c) + length contents <= i ->
  (exists a b, content s ret [Adr a; Adr b]) -> ~ In (p_block ret) own ->
  follows (fun h n => heap_size h + N.to_nat n <= heap_size (s_heap s) + length contents * round_need m i)
    (fun h n => heap_size h + N.to_nat n <= heap_size (s_heap s) + length contents * round_need m i /\ exists a text b, contents = a ++ text ++ b /\ n = (strlen (cstr text) + 1)%N)
    (leaves s (p_block ret :: own) (wasted (length contents) src P_top c contents) (length contents * round_need m i))
    (let% (s, line) := yyparse_says (length contents) src P_top c line contents in done (Some (mkConfig (c_sequences s) (Some (c_ignore s))), line))
    ((let$ (v, line) := c_yyparse (length contents) Q_top v line contents in
      let$ _ := assign ret CF_sequences (word_of (v_sequences v)) in
      let$ _ := assign ret CF_files_to_ignore (word_of (v_ignore v)) in
      wret (Some ret, line, v_name v)) s).
Proof.
  intros Lc Lm Ii U Fl Vs Ws Li (a0 & b0 & Cr) Nr.
  assert (Ws' : word_in s own m (Some source) (Some src)).
  { cbn in Ws |- *. destruct Ws as (W1 & W2 & W3). splits; auto. }
  eapply follows_bind.
  - apply (yyparse_ok contents m i source src Lc Lm Ii (length contents) P_top Q_top v c line contents s own (ex_intro _ [] eq_refl) U I); auto.
  - intros [c2 line2] [v2 line2'] s2 (El & own2 & U2 & Fl2 & E2 & Sz2). cbn [fst snd] in *. subst line2'.
    assert (Tr : there s (p_block ret)) by exact (content_there _ _ _ Cr).
    assert (Cr2 : content s2 ret [Adr a0; Adr b0]) by (apply (content_at s); [exact (evolves_at _ _ _ _ _ _ E2 Tr Nr)|exact Cr]).
    assert (Nr2 : ~ In (p_block ret) own2).
    { intros J. destruct E2 as (_ & B & _). apply B in J as [J|J]; [easy|]. apply there_old in Tr. lia. }
    step (assign_ok s2 ret _ 0 (word_of (v_sequences v2)) Cr2 ltac:(cbn; lia) : assign ret CF_sequences _ s2 = _).
    set (s3 := assigned s2 ret 0 (word_of (v_sequences v2))).
    assert (Cr3 : content s3 ret [Adr (v_sequences v2); Adr b0]) by (apply (assigned_content s2 ret [Adr a0; Adr b0] 0 _ (Adr (v_sequences v2)) Cr2), stands_word).
    step (assign_ok s3 ret _ 1 (word_of (v_ignore v2)) Cr3 ltac:(cbn; lia) : assign ret CF_files_to_ignore _ s3 = _).
    set (s4 := assigned s3 ret 1 (word_of (v_ignore v2))).
    assert (Cr4 : content s4 ret [Adr (v_sequences v2); Adr (v_ignore v2)]) by (apply (assigned_content s3 ret [Adr (v_sequences v2); Adr b0] 1 _ (Adr (v_ignore v2)) Cr3), stands_word).
    assert (Sm : forall b, b <> p_block ret -> same_at s2 s4 b).
    { intros b Nb. destruct (assigned_at s2 ret 0 (word_of (v_sequences v2)) b Nb) as (X1 & X2). destruct (assigned_at s3 ret 1 (word_of (v_ignore v2)) b Nb) as (Y1 & Y2).
      unfold same_at. split; [exact (eq_trans Y1 X1)|exact (eq_trans Y2 X2)]. }
    assert (U4 : under_way s4 v2 c2 own2) by (apply (under_way_same s2); [intros b J; apply Sm; intros ->; easy|exact U2]).
    destruct U4 as (sps & sown & fss & fps & fown & iown & A & V1 & V2 & F & V3 & V4 & G & Eo & ND).
    rewrite Fl2 in F. assert (fown = []) by (destruct fps; cbn in F; tauto). subst fown.
    eapply follows_done; [reflexivity|]. unfold leaves. cbn [fst snd]. split; [reflexivity|]. exists ((p_block ret :: sown ++ iown) ++ concat fss).
    assert (P4 : Permutation (p_block ret :: own2) ((p_block ret :: sown ++ iown) ++ concat fss)) by (subst own2; cbn [app]; perm).
    splits.
    + cbn [results_at]. exists (p_block ret :: sown ++ iown), fss. splits; auto.
      * exists sps, (v_ignore v2), sown, iown. cbn [cf_sequences cf_ignore]. splits; auto. now rewrite <- V1.
      * apply (Permutation_NoDup P4). now constructor.
    + apply (evolves_perm (p_block ret :: own) (p_block ret :: own2)); [reflexivity|exact P4|].
      rewrite <- (Nat.add_0_r (wasted _ _ _ _ _)). apply (evolves_trans _ (p_block ret :: own2) _ _ _ _ s2); [now apply evolves_frame|].
      apply (evolves_new _ _ _ _ _ []); [symmetry; apply app_nil_r| | |change (live []) with 0; lia].
      * intros b _ Nb. apply Sm. intros ->. apply Nb. now left.
      * auto.
    + exact Sz2.
Qed.

(** What a file may need. *)
Definition file_need (f : file_at) (m i : nat) : nat := 168 + match f with Contents contents => length contents * round_need m i | _ => 0 end.

Definition file_length (f : file_at) : nat := match f with Contents contents => length contents | _ => 0 end.

Definition file_lost (f : file_at) (src : str) (c : option config_t) : nat :=
  match f with
  | Contents contents => empty_list c + wasted (length contents) src P_top (mkCf (sequences_of c) [] None (ignored_of c)) contents
  | _ => 0
  end.

Theorem parse_file_ok (files : str -> file_at) m i filename src line name pp pc s own : cstr_at (s_heap s) filename src -> results_at s pp pc own -> ~ In (p_block filename) own ->
  length src <= m -> file_length (files src) <= m -> (N.of_nat m < 2 ^ 32)%N ->
  length (ignored_of pc) + file_length (files src) <= i -> (Z.of_nat (i + 32) <= int_max)%Z ->
  follows (fun h n => heap_size h + N.to_nat n <= heap_size (s_heap s) + file_need (files src) m i)
    (fun h n => heap_size h + N.to_nat n <= heap_size (s_heap s) + file_need (files src) m i /\ exists a text b, files src = Contents (a ++ text ++ b) /\ n = (strlen (cstr text) + 1)%N)
    (leaves s own (file_lost (files src) src pc) (file_need (files src) m i))
    (parse_config_file_says files src line pc) (c_parse_config_file files filename line name pp s).
Proof.
  intros Cf Rs Nf Ls Lf Lm Li Ii. unfold c_parse_config_file. rewrite (wbind_done _ _ _ _ _ (bytes_done _ _ _ _ (read_ok _ _ _ Cf))).
  replace (mkStore (s_heap s) (s_words s)) with s by now destruct s.
  unfold parse_config_file_says.
  (* the part after the preparations *)
  assert (Rest : forall k0 s1 ret own1 v, files src <> NoFile -> under_way s1 v (mkCf (sequences_of pc) [] None (ignored_of pc)) own1 -> v_source v = Some filename ->
    (exists a b, content s1 ret [Adr a; Adr b]) -> ~ In (p_block ret) own1 ->
    evolves own (p_block ret :: own1) k0 s s1 -> k0 = empty_list pc -> heap_size (s_heap s1) <= heap_size (s_heap s) + 168 ->
    follows (fun h n => heap_size h + N.to_nat n <= heap_size (s_heap s) + file_need (files src) m i)
    (fun h n => heap_size h + N.to_nat n <= heap_size (s_heap s) + file_need (files src) m i /\ exists a text b, files src = Contents (a ++ text ++ b) /\ n = (strlen (cstr text) + 1)%N)
    (leaves s own (file_lost (files src) src pc) (file_need (files src) m i))
    (parse_config_file_says files src line pc)
    (match files src with
      | Contents bytes =>
        let$ (v, line) := c_yyparse (length bytes) Q_top v line bytes in
        let$ _ := assign ret CF_sequences (word_of (v_sequences v)) in
        let$ _ := assign ret CF_files_to_ignore (word_of (v_ignore v)) in
        wret (Some ret, line, v_name v)
      | _ =>
        let$ _ := saying (complain (bs "input in flex scanner failed")) in
        fun _ => quietly (Exit YY_EXIT_FAILURE)
      end s1)).
  { intros k0 s1 ret own1 v NF U Vs Cr Nr E0 Ek Sz. unfold parse_config_file_says, file_need, file_lost. destruct (files src) as [| |contents] eqn:Ef; [easy|now apply follows_exit|].
    cbn [file_length] in *.
    assert (W0 : word_in s own m (Some filename) (Some src)) by (cbn; auto).
    eapply follows_weaken; [apply (parse_rest contents m i filename src s1 ret v (mkCf (sequences_of pc) [] None (ignored_of pc)) own1 line Lf Lm Ii U eq_refl Vs (word_evolves _ _ _ _ _ _ _ _ E0 W0) Li Cr Nr)| | |].
    - intros h n L. cbv beta in L. lia.
    - intros h n (L & a & text & b & Ec & En). split; [lia|]. exists a, text, b. now rewrite Ec.
    - intros b a s' (El & own' & R' & E' & Sz'). split; [exact El|]. exists own'. splits; auto; [|lia]. subst k0. exact (evolves_trans _ _ _ _ _ _ _ _ E0 E'). }
  assert (Body : files src <> NoFile ->
    follows (fun h n => heap_size h + N.to_nat n <= heap_size (s_heap s) + file_need (files src) m i)
    (fun h n => heap_size h + N.to_nat n <= heap_size (s_heap s) + file_need (files src) m i /\ exists a text b, files src = Contents (a ++ text ++ b) /\ n = (strlen (cstr text) + 1)%N)
    (leaves s own (file_lost (files src) src pc) (file_need (files src) m i))
    (parse_config_file_says files src line pc)
    ((let$ ret := (match pp with Some c => wret c | None => c_config_file_init end) in
    let$ sequences := (match pp with Some c => ptr_at c CF_sequences | None => wret None end) in
    let$ last := (match sequences with Some q => let$ l := c_last_sequence q in wret (Some l) | None => wret None end) in
    let$ ignore :=
      (match pp with
       | Some c =>
         let$ l := ptr_at c CF_files_to_ignore in
         let$ n := c_filelist_count l in
         if (0 <? n)%Z then wret l else let$ l := c_filelist_init in wret (Some l)
       | None => let$ l := c_filelist_init in wret (Some l)
       end) in
    match files src with
    | Contents bytes =>
      let$ (v, line) := c_yyparse (length bytes) Q_top (mkStatics sequences last None None name (Some filename) ignore) line bytes in
      let$ _ := assign ret CF_sequences (word_of (v_sequences v)) in
      let$ _ := assign ret CF_files_to_ignore (word_of (v_ignore v)) in
      wret (Some ret, line, v_name v)
    | _ =>
      let$ _ := saying (complain (bs "input in flex scanner failed")) in
      fun _ => quietly (Exit YY_EXIT_FAILURE)
    end) s)).
  { intros NF.
    assert (Big : 168 <= file_need (files src) m i) by (unfold file_need; lia).
    assert (Bl : forall k, heap_size [blank k] = N.to_nat k) by (intros k; unfold blank; now rewrite size_one, repeat_length).
    destruct pp as [ret|], pc as [c|]; cbn [results_at] in Rs; try contradiction.
    - destruct Rs as (cown & fss & (sps & ig & sown & iown & Cr & A & G & ->) & -> & ND). cbn [sequences_of ignored_of] in *.
      rewrite wbind_ret. step (ptr_at_ok s ret _ 0 _ Cr eq_refl : ptr_at ret CF_sequences s = _).
      assert (NDs : NoDup sown) by (cbn in ND; apply NoDup_cons_iff in ND as (_ & ND); now apply NoDup_l, NoDup_l in ND).
      assert (P0 : Permutation ((p_block ret :: sown ++ iown) ++ concat fss) (p_block ret :: (sown ++ concat fss ++ [] ++ iown))) by (cbn [app]; perm).
      assert (Nr : ~ In (p_block ret) (sown ++ concat fss ++ [] ++ iown) /\ NoDup (sown ++ concat fss ++ [] ++ iown)) by (apply (Permutation_NoDup P0), NoDup_cons_iff in ND; exact ND).
      destruct Nr as (Nr & ND1).
      assert (Ls1 : exists last, (match first sps None with Some q => let$ l := c_last_sequence q in wret (Some l) | None => wret None end) s = done (last, s) /\ last = last_of sps).
      { destruct sps as [|sp sps]; [exists None; split; reflexivity|]. destruct (last_ok s sp sps _ _ _ A NDs) as (l & El & Ea). exists (Some l). cbn [first]. step El. split; [reflexivity|congruence]. }
      destruct Ls1 as (last & El & Ea). step El. rewrite wbind_assoc. step (ptr_at_ok s ret _ 1 _ Cr eq_refl : ptr_at ret CF_files_to_ignore s = _). rewrite wbind_assoc.
      assert (Cn : c_filelist_count ig s = done (Z.of_nat (length (ignored_of (Some c))), s)).
      { cbn [ignored_of]. destruct ig as [ig|], (cf_ignore c) as [l|]; cbn in G; try contradiction; [|reflexivity]. destruct G as (mx & (ar & nms & Cl & _) & _).
        exact (int_at_ok s ig _ 2 _ Cl eq_refl). }
      cbn [ignored_of] in Cn. step Cn.
      destruct (match cf_ignore c with Some l => l | None => [] end) as [|i0 ign] eqn:Ei.
      + change ((0 <? Z.of_nat (length (@nil str)))%Z) with false. cbv iota. rewrite wbind_assoc.
        eapply follows_ends; [apply list_init| |].
        * intros h n [(-> & ->)|(-> & ->)]; rewrite ?size_app, ?Bl; cbn [N.to_nat]; lia.
        * intros l s1 (-> & Ll & H1 & W1). rewrite wbind_ret. set (n0 := length (s_heap s)) in *.
          assert (T : forall b, In b ((p_block ret :: sown ++ iown) ++ concat fss) -> there s b).
          { intros b. cbn [app In]. rewrite !in_app_iff. intros [<-|[[I|I]|I]]; [exact (content_there _ _ _ Cr)|apply (sequences_there _ _ _ _ _ _ A), in_app_iff; auto|exact (ignored_there _ _ _ _ G _ I)|apply (sequences_there _ _ _ _ _ _ A), in_app_iff; auto]. }
          assert (K : forall b, there s b -> same_at s s1 b).
          { intros b Tb. apply (grown_at _ _ _ _ H1); [|exact Tb]. apply W1. intros [E|[E|[]]]; apply there_old in Tb; lia. }
          apply (Rest (length iown) s1 ret (sown ++ concat fss ++ [] ++ [n0; S n0])); auto.
          -- exists sps, sown, fss, [], [], [n0; S n0]. cbn [v_sequences v_last_sequence v_filters v_last_filter v_ignore c_sequences c_filters c_ignore]. splits; auto; try reflexivity.
             ++ apply (sequences_same s); [| |exact A]; intros b I; apply K, T; cbn [app In]; rewrite !in_app_iff; tauto.
             ++ cbn. exists 16. split; [exact Ll|cbn; lia].
             ++ cbn [app]. rewrite app_assoc. apply (fresh_apart s (sown ++ concat fss) 2); [intros b I; apply T; cbn [app In]; rewrite !in_app_iff in *; tauto|].
                cbn [app] in ND1. rewrite app_assoc in ND1. now apply NoDup_l in ND1.
          -- exists (first sps None), ig. apply (content_at s); [|exact Cr]. apply K, T. now left.
          -- cbn [app]. rewrite !in_app_iff. intros [I|[I|[E|[E|[]]]]]; [apply Nr; rewrite !in_app_iff; tauto|apply Nr; rewrite !in_app_iff; tauto| |]; pose proof (there_old _ _ (content_there _ _ _ Cr)); lia.
          -- apply (evolves_new _ _ _ _ _ _ H1).
             ++ intros b Lb _. apply W1. intros [E|[E|[]]]; lia.
             ++ intros b. cbn [app In]. rewrite !in_app_iff. cbn [In]. fold n0. intros [I|[I|[I|[I|[I|[]]]]]]; auto; try tauto; right; lia.
             ++ change (live [blank 24; blank 128]) with 2. cbn [app length]. rewrite !app_length. cbn [length]. lia.
          -- cbn [empty_list]. destruct ig as [ig|], (cf_ignore c) as [l|]; cbn in G; try contradiction; [|now subst iown]. subst l. destruct G as (mx & (ar & nms & _ & _ & F2 & -> & _) & _).
             inversion F2. reflexivity.
          -- rewrite H1. change [blank 24; blank 128] with ([blank 24] ++ [blank 128]). rewrite !size_app, !Bl. cbn [N.to_nat]. lia.
      + change ((0 <? Z.of_nat (length (i0 :: ign)))%Z) with true. cbv iota. rewrite wbind_ret.
        apply (Rest 0 s ret (sown ++ concat fss ++ [] ++ iown)); auto.
        * exists sps, sown, fss, [], [], iown. cbn [v_sequences v_last_sequence v_filters v_last_filter v_ignore c_sequences c_filters c_ignore]. splits; auto; try reflexivity.
          destruct (cf_ignore c) as [l|]; [now subst l|discriminate].
        * eauto.
        * apply (evolves_perm ((p_block ret :: sown ++ iown) ++ concat fss) ((p_block ret :: sown ++ iown) ++ concat fss)); [reflexivity|exact P0|apply evolves_refl].
        * cbn [empty_list]. destruct (cf_ignore c) as [[|]|]; try discriminate; reflexivity.
        * lia.
    - subst own. cbn [sequences_of ignored_of] in *. eapply follows_ends; [apply config_init_ok| |].
      + intros h n (-> & ->). cbn [N.to_nat]. lia.
      + intros ret s1 (-> & H1 & W1 & C1). rewrite !wbind_ret, wbind_assoc. eapply follows_ends; [apply list_init| |].
        * intros h n [(-> & ->)|(-> & ->)]; rewrite H1, ?size_app, ?Bl; cbn [N.to_nat]; lia.
        * intros l s2 (-> & Ll & H2 & W2). rewrite wbind_ret. set (n0 := length (s_heap s)) in *.
          assert (L1 : length (s_heap s1) = S n0) by (rewrite H1, app_length; cbn [length]; fold n0; lia). rewrite L1 in *.
          apply (Rest 0 s2 (mkPtr n0 0) [S n0; S (S n0)]); auto.
          -- exists [], [], [], [], [], [S n0; S (S n0)]. cbn [v_sequences v_last_sequence v_filters v_last_filter v_ignore c_sequences c_filters c_ignore]. splits; auto; try reflexivity.
             ++ cbn. auto.
             ++ cbn. exists 16. split; [exact Ll|cbn; lia].
             ++ cbn. repeat constructor; cbn; intuition lia.
          -- exists None, None. apply (content_at s1); [|exact C1]. apply (grown_at _ _ _ _ H2); [|exact (content_there _ _ _ C1)]. apply W2. cbn. intuition lia.
          -- cbn. intuition lia.
          -- apply (evolves_new _ _ _ _ _ ([blank 16] ++ [blank 24; blank 128])); [rewrite H2, H1; now rewrite <- app_assoc| | |reflexivity].
             ++ intros b Lb _. fold n0 in Lb. rewrite W2, W1; [reflexivity| |]; cbn; intuition lia.
             ++ intros b I. right. fold n0. cbn in I. intuition lia.
          -- rewrite H2, H1. change [blank 24; blank 128] with ([blank 24] ++ [blank 128]). rewrite !size_app, !Bl. cbn [N.to_nat]. lia. }
  unfold parse_config_file_says in Body. destruct (files src) as [| |contents] eqn:Ef.
  - (* no file *)
    eapply follows_done; [reflexivity|]. split; [reflexivity|]. exists own. cbn [fst snd]. splits; auto; [apply evolves_refl|lia].
  - apply Body. discriminate.
  - apply Body. discriminate.
Qed.

End parse.
